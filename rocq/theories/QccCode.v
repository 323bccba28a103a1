(** The amplitude equations of QED-CCSD, statement by statement, in the
    language of QccModel.v.  Each definition holds the statements of one
    function of /repo/openms/mqed in the order of the source; a statement under
    tests carries them, and a test with an early return is carried by all
    statements below it.  Lines that are comments in the source are left out. *)
From Coq Require Import String Ascii.
From mathcomp Require Import all_ssreflect all_algebra.
From Verif Require Import QccModel.
Set Implicit Arguments.
Unset Strict Implicit.
Unset Printing Implicit Defensive.
Open Scope string_scope.
Open Scope nat_scope.
Open Scope seq_scope.

(** /repo/openms/mqed/qedcc_equations.py lines 23-63, [qedccsd_T1].
    The result is "T1". *)
Definition ref_T1 : prog := [::
  "T1" :== Zero "vo";
  "T1" +== Ein "ai->ai" [:: ("F.vo",0)];
  "T1" +== Sc (-1) 0 (Ein "ji,aj->ai" [:: ("F.oo",0); ("T1old",0)]);
  "T1" +== Ein "ab,bi->ai" [:: ("F.vv",0); ("T1old",0)];
  "T1" +== Ein "Iai,I->ai" [:: ("g.vo",0); ("Snold[0]",0)];
  "T1" +== Sc (-1) 0 (Ein "jb,abji->ai" [:: ("F.ov",0); ("T2old",0)]);
  "T1" +== Sc (-1) 0 (Ein "Iji,Iaj->ai" [:: ("g.oo",0); ("U1nold[0]",0)]);
  "T1" +== Ein "Iab,Ibi->ai" [:: ("g.vv",0); ("U1nold[0]",0)];
  "T1" +== Sc (-1) 0 (Ein "jaib,bj->ai" [:: ("I.ovov",0); ("T1old",0)]);
  "T1" +== Sc (1) 1 (Ein "jkib,abkj->ai" [:: ("I.ooov",0); ("T2old",0)]);
  "T1" +== Sc (-1) 1 (Ein "jabc,cbji->ai" [:: ("I.ovvv",0); ("T2old",0)]);
  "T1" +== Sc (-1) 0 (Ein "jb,bi,aj->ai" [:: ("F.ov",0); ("T1old",0); ("T1old",0)]);
  "T1" +== Sc (-1) 0 (Ein "Iji,aj,I->ai" [:: ("g.oo",0); ("T1old",0); ("Snold[0]",0)]);
  "T1" +== Ein "Iab,bi,I->ai" [:: ("g.vv",0); ("T1old",0); ("Snold[0]",0)];
  "T1" +== Sc (-1) 0 (Ein "Ijb,aj,Ibi->ai" [:: ("g.ov",0); ("T1old",0); ("U1nold[0]",0)]);
  "T1" +== Sc (-1) 0 (Ein "Ijb,bi,Iaj->ai" [:: ("g.ov",0); ("T1old",0); ("U1nold[0]",0)]);
  "T1" +== Ein "Ijb,bj,Iai->ai" [:: ("g.ov",0); ("T1old",0); ("U1nold[0]",0)];
  "T1" +== Sc (-1) 0 (Ein "Ijb,abji,I->ai" [:: ("g.ov",0); ("T2old",0); ("Snold[0]",0)]);
  "T1" +== Sc (-1) 0 (Ein "jkib,aj,bk->ai" [:: ("I.ooov",0); ("T1old",0); ("T1old",0)]);
  "T1" +== Ein "jabc,ci,bj->ai" [:: ("I.ovvv",0); ("T1old",0); ("T1old",0)];
  "T1" +== Sc (-1) 1 (Ein "jkbc,aj,cbki->ai" [:: ("I.oovv",0); ("T1old",0); ("T2old",0)]);
  "T1" +== Sc (-1) 1 (Ein "jkbc,ci,abkj->ai" [:: ("I.oovv",0); ("T1old",0); ("T2old",0)]);
  "T1" +== Ein "jkbc,cj,abki->ai" [:: ("I.oovv",0); ("T1old",0); ("T2old",0)];
  "T1" +== Ein "jkbc,ci,aj,bk->ai" [:: ("I.oovv",0); ("T1old",0); ("T1old",0); ("T1old",0)];
  "T1" +== Sc (-1) 0 (Ein "I,Ijb,bi,aj->ai" [:: ("Snold[0]",0); ("g.ov",0); ("T1old",0); ("T1old",0)]);
  when [:: TU2] ("T1" +== Sc (-1) 0 (Ein "Ijb,Iabji->ai" [:: ("g.ov",0); ("U2nold[0]",0)]))].

(** /repo/openms/mqed/qedcc_equations.py lines 65-184, [qedccsd_T2].
    The result is "T2". *)
Definition ref_T2 : prog := [::
  "T2" :== Zero "vvoo";
  "T2" +== Ein "baji->abij" [:: ("I.vvoo",0)];
  "T2" +== Ein "ki,bakj->abij" [:: ("F.oo",0); ("T2old",0)];
  "T2" +== Sc (-1) 0 (Ein "kj,baki->abij" [:: ("F.oo",0); ("T2old",0)]);
  "T2" +== Ein "ac,bcji->abij" [:: ("F.vv",0); ("T2old",0)];
  "T2" +== Sc (-1) 0 (Ein "bc,acji->abij" [:: ("F.vv",0); ("T2old",0)]);
  "T2" +== Ein "Iai,Ibj->abij" [:: ("g.vo",0); ("U1nold[0]",0)];
  "T2" +== Sc (-1) 0 (Ein "Iaj,Ibi->abij" [:: ("g.vo",0); ("U1nold[0]",0)]);
  "T2" +== Sc (-1) 0 (Ein "Ibi,Iaj->abij" [:: ("g.vo",0); ("U1nold[0]",0)]);
  "T2" +== Ein "Ibj,Iai->abij" [:: ("g.vo",0); ("U1nold[0]",0)];
  "T2" +== Sc (-1) 0 (Ein "kaji,bk->abij" [:: ("I.ovoo",0); ("T1old",0)]);
  "T2" +== Ein "kbji,ak->abij" [:: ("I.ovoo",0); ("T1old",0)];
  "T2" +== Sc (-1) 0 (Ein "baic,cj->abij" [:: ("I.vvov",0); ("T1old",0)]);
  "T2" +== Ein "bajc,ci->abij" [:: ("I.vvov",0); ("T1old",0)];
  "T2" +== Sc (-1) 1 (Ein "klji,balk->abij" [:: ("I.oooo",0); ("T2old",0)]);
  "T2" +== Ein "kaic,bckj->abij" [:: ("I.ovov",0); ("T2old",0)];
  "T2" +== Sc (-1) 0 (Ein "kajc,bcki->abij" [:: ("I.ovov",0); ("T2old",0)]);
  "T2" +== Sc (-1) 0 (Ein "kbic,ackj->abij" [:: ("I.ovov",0); ("T2old",0)]);
  "T2" +== Ein "kbjc,acki->abij" [:: ("I.ovov",0); ("T2old",0)];
  "T2" +== Sc (-1) 1 (Ein "bacd,dcji->abij" [:: ("I.vvvv",0); ("T2old",0)]);
  "T2" +== Sc (-1) 0 (Ein "kc,ak,bcji->abij" [:: ("F.ov",0); ("T1old",0); ("T2old",0)]);
  "T2" +== Ein "kc,bk,acji->abij" [:: ("F.ov",0); ("T1old",0); ("T2old",0)];
  "T2" +== Ein "kc,ci,bakj->abij" [:: ("F.ov",0); ("T1old",0); ("T2old",0)];
  "T2" +== Sc (-1) 0 (Ein "kc,cj,baki->abij" [:: ("F.ov",0); ("T1old",0); ("T2old",0)]);
  "T2" +== Sc (-1) 0 (Ein "Iki,ak,Ibj->abij" [:: ("g.oo",0); ("T1old",0); ("U1nold[0]",0)]);
  "T2" +== Ein "Iki,bk,Iaj->abij" [:: ("g.oo",0); ("T1old",0); ("U1nold[0]",0)];
  "T2" +== Ein "Iki,bakj,I->abij" [:: ("g.oo",0); ("T2old",0); ("Snold[0]",0)];
  "T2" +== Ein "Ikj,ak,Ibi->abij" [:: ("g.oo",0); ("T1old",0); ("U1nold[0]",0)];
  "T2" +== Sc (-1) 0 (Ein "Ikj,bk,Iai->abij" [:: ("g.oo",0); ("T1old",0); ("U1nold[0]",0)]);
  "T2" +== Sc (-1) 0 (Ein "Ikj,baki,I->abij" [:: ("g.oo",0); ("T2old",0); ("Snold[0]",0)]);
  "T2" +== Ein "Iac,ci,Ibj->abij" [:: ("g.vv",0); ("T1old",0); ("U1nold[0]",0)];
  "T2" +== Sc (-1) 0 (Ein "Iac,cj,Ibi->abij" [:: ("g.vv",0); ("T1old",0); ("U1nold[0]",0)]);
  "T2" +== Ein "Iac,bcji,I->abij" [:: ("g.vv",0); ("T2old",0); ("Snold[0]",0)];
  "T2" +== Sc (-1) 0 (Ein "Ibc,ci,Iaj->abij" [:: ("g.vv",0); ("T1old",0); ("U1nold[0]",0)]);
  "T2" +== Ein "Ibc,cj,Iai->abij" [:: ("g.vv",0); ("T1old",0); ("U1nold[0]",0)];
  "T2" +== Sc (-1) 0 (Ein "Ibc,acji,I->abij" [:: ("g.vv",0); ("T2old",0); ("Snold[0]",0)]);
  "T2" +== Ein "klji,bk,al->abij" [:: ("I.oooo",0); ("T1old",0); ("T1old",0)];
  "T2" +== Ein "kaic,cj,bk->abij" [:: ("I.ovov",0); ("T1old",0); ("T1old",0)];
  "T2" +== Sc (-1) 0 (Ein "kajc,ci,bk->abij" [:: ("I.ovov",0); ("T1old",0); ("T1old",0)]);
  "T2" +== Sc (-1) 0 (Ein "kbic,cj,ak->abij" [:: ("I.ovov",0); ("T1old",0); ("T1old",0)]);
  "T2" +== Ein "kbjc,ci,ak->abij" [:: ("I.ovov",0); ("T1old",0); ("T1old",0)];
  "T2" +== Ein "bacd,di,cj->abij" [:: ("I.vvvv",0); ("T1old",0); ("T1old",0)];
  "T2" +== Ein "Ikc,acji,Ibk->abij" [:: ("g.ov",0); ("T2old",0); ("U1nold[0]",0)];
  "T2" +== Sc (-1) 0 (Ein "Ikc,acki,Ibj->abij" [:: ("g.ov",0); ("T2old",0); ("U1nold[0]",0)]);
  "T2" +== Ein "Ikc,ackj,Ibi->abij" [:: ("g.ov",0); ("T2old",0); ("U1nold[0]",0)];
  "T2" +== Sc (-1) 0 (Ein "Ikc,baki,Icj->abij" [:: ("g.ov",0); ("T2old",0); ("U1nold[0]",0)]);
  "T2" +== Ein "Ikc,bakj,Ici->abij" [:: ("g.ov",0); ("T2old",0); ("U1nold[0]",0)];
  "T2" +== Sc (-1) 0 (Ein "Ikc,bcji,Iak->abij" [:: ("g.ov",0); ("T2old",0); ("U1nold[0]",0)]);
  "T2" +== Ein "Ikc,bcki,Iaj->abij" [:: ("g.ov",0); ("T2old",0); ("U1nold[0]",0)];
  "T2" +== Sc (-1) 0 (Ein "Ikc,bckj,Iai->abij" [:: ("g.ov",0); ("T2old",0); ("U1nold[0]",0)]);
  "T2" +== Ein "klic,ak,bclj->abij" [:: ("I.ooov",0); ("T1old",0); ("T2old",0)];
  "T2" +== Sc (-1) 0 (Ein "klic,bk,aclj->abij" [:: ("I.ooov",0); ("T1old",0); ("T2old",0)]);
  "T2" +== Sc (1) 1 (Ein "klic,cj,balk->abij" [:: ("I.ooov",0); ("T1old",0); ("T2old",0)]);
  "T2" +== Sc (-1) 0 (Ein "klic,ck,balj->abij" [:: ("I.ooov",0); ("T1old",0); ("T2old",0)]);
  "T2" +== Sc (-1) 0 (Ein "kljc,ak,bcli->abij" [:: ("I.ooov",0); ("T1old",0); ("T2old",0)]);
  "T2" +== Ein "kljc,bk,acli->abij" [:: ("I.ooov",0); ("T1old",0); ("T2old",0)];
  "T2" +== Sc (-1) 1 (Ein "kljc,ci,balk->abij" [:: ("I.ooov",0); ("T1old",0); ("T2old",0)]);
  "T2" +== Ein "kljc,ck,bali->abij" [:: ("I.ooov",0); ("T1old",0); ("T2old",0)];
  "T2" +== Sc (1) 1 (Ein "kacd,bk,dcji->abij" [:: ("I.ovvv",0); ("T1old",0); ("T2old",0)]);
  "T2" +== Sc (-1) 0 (Ein "kacd,di,bckj->abij" [:: ("I.ovvv",0); ("T1old",0); ("T2old",0)]);
  "T2" +== Ein "kacd,dj,bcki->abij" [:: ("I.ovvv",0); ("T1old",0); ("T2old",0)];
  "T2" +== Sc (-1) 0 (Ein "kacd,dk,bcji->abij" [:: ("I.ovvv",0); ("T1old",0); ("T2old",0)]);
  "T2" +== Sc (-1) 1 (Ein "kbcd,ak,dcji->abij" [:: ("I.ovvv",0); ("T1old",0); ("T2old",0)]);
  "T2" +== Ein "kbcd,di,ackj->abij" [:: ("I.ovvv",0); ("T1old",0); ("T2old",0)];
  "T2" +== Sc (-1) 0 (Ein "kbcd,dj,acki->abij" [:: ("I.ovvv",0); ("T1old",0); ("T2old",0)]);
  "T2" +== Ein "kbcd,dk,acji->abij" [:: ("I.ovvv",0); ("T1old",0); ("T2old",0)];
  "T2" +== Sc (1) 1 (Ein "klcd,adji,bclk->abij" [:: ("I.oovv",0); ("T2old",0); ("T2old",0)]);
  "T2" +== Sc (-1) 0 (Ein "klcd,adki,bclj->abij" [:: ("I.oovv",0); ("T2old",0); ("T2old",0)]);
  "T2" +== Sc (-1) 1 (Ein "klcd,baki,dclj->abij" [:: ("I.oovv",0); ("T2old",0); ("T2old",0)]);
  "T2" +== Sc (-1) 1 (Ein "klcd,bdji,aclk->abij" [:: ("I.oovv",0); ("T2old",0); ("T2old",0)]);
  "T2" +== Ein "klcd,bdki,aclj->abij" [:: ("I.oovv",0); ("T2old",0); ("T2old",0)];
  "T2" +== Sc (1) 2 (Ein "klcd,dcji,balk->abij" [:: ("I.oovv",0); ("T2old",0); ("T2old",0)]);
  "T2" +== Sc (-1) 1 (Ein "klcd,dcki,balj->abij" [:: ("I.oovv",0); ("T2old",0); ("T2old",0)]);
  "T2" +== Sc (-1) 0 (Ein "Ikc,ak,bcji,I->abij" [:: ("g.ov",0); ("T1old",0); ("T2old",0); ("Snold[0]",0)]);
  "T2" +== Ein "Ikc,bk,acji,I->abij" [:: ("g.ov",0); ("T1old",0); ("T2old",0); ("Snold[0]",0)];
  "T2" +== Sc (-1) 0 (Ein "Ikc,ci,ak,Ibj->abij" [:: ("g.ov",0); ("T1old",0); ("T1old",0); ("U1nold[0]",0)]);
  "T2" +== Ein "Ikc,ci,bk,Iaj->abij" [:: ("g.ov",0); ("T1old",0); ("T1old",0); ("U1nold[0]",0)];
  "T2" +== Ein "Ikc,ci,bakj,I->abij" [:: ("g.ov",0); ("T1old",0); ("T2old",0); ("Snold[0]",0)];
  "T2" +== Ein "Ikc,cj,ak,Ibi->abij" [:: ("g.ov",0); ("T1old",0); ("T1old",0); ("U1nold[0]",0)];
  "T2" +== Sc (-1) 0 (Ein "Ikc,cj,bk,Iai->abij" [:: ("g.ov",0); ("T1old",0); ("T1old",0); ("U1nold[0]",0)]);
  "T2" +== Sc (-1) 0 (Ein "Ikc,cj,baki,I->abij" [:: ("g.ov",0); ("T1old",0); ("T2old",0); ("Snold[0]",0)]);
  "T2" +== Sc (-1) 0 (Ein "klic,cj,bk,al->abij" [:: ("I.ooov",0); ("T1old",0); ("T1old",0); ("T1old",0)]);
  "T2" +== Ein "kljc,ci,bk,al->abij" [:: ("I.ooov",0); ("T1old",0); ("T1old",0); ("T1old",0)];
  "T2" +== Sc (-1) 0 (Ein "kacd,di,cj,bk->abij" [:: ("I.ovvv",0); ("T1old",0); ("T1old",0); ("T1old",0)]);
  "T2" +== Ein "kbcd,di,cj,ak->abij" [:: ("I.ovvv",0); ("T1old",0); ("T1old",0); ("T1old",0)];
  "T2" +== Sc (-1) 0 (Ein "klcd,ak,dl,bcji->abij" [:: ("I.oovv",0); ("T1old",0); ("T1old",0); ("T2old",0)]);
  "T2" +== Sc (-1) 1 (Ein "klcd,bk,al,dcji->abij" [:: ("I.oovv",0); ("T1old",0); ("T1old",0); ("T2old",0)]);
  "T2" +== Ein "klcd,bk,dl,acji->abij" [:: ("I.oovv",0); ("T1old",0); ("T1old",0); ("T2old",0)];
  "T2" +== Sc (-1) 0 (Ein "klcd,di,ak,bclj->abij" [:: ("I.oovv",0); ("T1old",0); ("T1old",0); ("T2old",0)]);
  "T2" +== Ein "klcd,di,bk,aclj->abij" [:: ("I.oovv",0); ("T1old",0); ("T1old",0); ("T2old",0)];
  "T2" +== Sc (-1) 1 (Ein "klcd,di,cj,balk->abij" [:: ("I.oovv",0); ("T1old",0); ("T1old",0); ("T2old",0)]);
  "T2" +== Ein "klcd,di,ck,balj->abij" [:: ("I.oovv",0); ("T1old",0); ("T1old",0); ("T2old",0)];
  "T2" +== Ein "klcd,dj,ak,bcli->abij" [:: ("I.oovv",0); ("T1old",0); ("T1old",0); ("T2old",0)];
  "T2" +== Sc (-1) 0 (Ein "klcd,dj,bk,acli->abij" [:: ("I.oovv",0); ("T1old",0); ("T1old",0); ("T2old",0)]);
  "T2" +== Sc (-1) 0 (Ein "klcd,dj,ck,bali->abij" [:: ("I.oovv",0); ("T1old",0); ("T1old",0); ("T2old",0)]);
  "T2" +== Ein "klcd,di,cj,bk,al->abij" [:: ("I.oovv",0); ("T1old",0); ("T1old",0); ("T1old",0); ("T1old",0)];
  when [:: TU2] ("T2" +== Ein "Iki,Ibakj->abij" [:: ("g.oo",0); ("U2nold[0]",0)]);
  when [:: TU2] ("T2" +== Sc (-1) 0 (Ein "Ikj,Ibaki->abij" [:: ("g.oo",0); ("U2nold[0]",0)]));
  when [:: TU2] ("T2" +== Ein "Iac,Ibcji->abij" [:: ("g.vv",0); ("U2nold[0]",0)]);
  when [:: TU2] ("T2" +== Sc (-1) 0 (Ein "Ibc,Iacji->abij" [:: ("g.vv",0); ("U2nold[0]",0)]));
  when [:: TU2] ("T2" +== Sc (-1) 0 (Ein "Ikc,ak,Ibcji->abij" [:: ("g.ov",0); ("T1old",0); ("U2nold[0]",0)]));
  when [:: TU2] ("T2" +== Ein "Ikc,bk,Iacji->abij" [:: ("g.ov",0); ("T1old",0); ("U2nold[0]",0)]);
  when [:: TU2] ("T2" +== Ein "Ikc,ci,Ibakj->abij" [:: ("g.ov",0); ("T1old",0); ("U2nold[0]",0)]);
  when [:: TU2] ("T2" +== Sc (-1) 0 (Ein "Ikc,cj,Ibaki->abij" [:: ("g.ov",0); ("T1old",0); ("U2nold[0]",0)]));
  when [:: TU2] ("T2" +== Ein "Ikc,ck,Ibaji->abij" [:: ("g.ov",0); ("T1old",0); ("U2nold[0]",0)])].

(** /repo/openms/mqed/qedcc_equations.py lines 347-405, [qedccsd_Sn].
    The results are "S1" and "S2" before the loops of lines 375-377 and 399-401
    (see [mask1] and [mask2]). *)
Definition ref_Sn : prog := [::
  when [:: T1gt 0] ("S1" :== Sc (0) 0 (At ("H",0)));
  when [:: T1gt 0] ("S1" +== Ein "I,I->I" [:: ("w",0); ("Snold[0]",0)]);
  when [:: T1gt 0] ("S1" +== Ein "ia,Iai->I" [:: ("F.ov",0); ("U1nold[0]",0)]);
  when [:: T1gt 0] ("S1" +== Ein "Iia,ai->I" [:: ("g.ov",0); ("T1old",0)]);
  when [:: T1gt 0] ("S1" +== Ein "Jia,J,Iai->I" [:: ("g.ov",0); ("Snold[0]",0); ("U1nold[0]",0)]);
  when [:: T1gt 0] ("S1" +== Sc (-1) 0 (Ein "ijab,bi,Iaj->I" [:: ("I.oovv",0); ("T1old",0); ("U1nold[0]",0)]));
  when [:: T1gt 0; TU2] ("S1" +== Sc (1) 2 (Ein "ijab,Ibaji->I" [:: ("I.oovv",0); ("U2nold[0]",0)]));
  when [:: T1gt 0; T1gt 1] ("S1" +== Ein "Jia,ai,IJ->I" [:: ("g.ov",0); ("T1old",0); ("Snold[1]",0)]);
  when [:: T1gt 0; T2gt 1] ("S1" +== Ein "Jia,IJai->I" [:: ("g.ov",0); ("U1nold[1]",0)]);
  when [:: T1gt 0; T1gt 1] ("S2" :== Zero "xx");
  when [:: T1gt 0; T1gt 1] ("S2" +== Ein "I,JI->IJ" [:: ("w",0); ("Snold[1]",0)]);
  when [:: T1gt 0; T1gt 1] ("S2" +== Ein "J,IJ->IJ" [:: ("w",0); ("Snold[1]",0)]);
  when [:: T1gt 0; T1gt 1] ("S2" +== Ein "Iia,Jai->IJ" [:: ("g.ov",0); ("U1nold[0]",0)]);
  when [:: T1gt 0; T1gt 1] ("S2" +== Ein "Jia,Iai->IJ" [:: ("g.ov",0); ("U1nold[0]",0)]);
  when [:: T1gt 0; T1gt 1] ("S2" +== Ein "Kia,IK,Jai->IJ" [:: ("g.ov",0); ("Snold[1]",0); ("U1nold[0]",0)]);
  when [:: T1gt 0; T1gt 1] ("S2" +== Ein "Kia,JK,Iai->IJ" [:: ("g.ov",0); ("Snold[1]",0); ("U1nold[0]",0)]);
  when [:: T1gt 0; T1gt 1] ("S2" +== Sc (-1) 0 (Ein "ijab,Ibi,Jaj->IJ" [:: ("I.oovv",0); ("U1nold[0]",0); ("U1nold[0]",0)]));
  when [:: T1gt 0; T1gt 1; T2gt 1] ("S2" +== Ein "ia,IJai->IJ" [:: ("F.ov",0); ("U1nold[1]",0)]);
  when [:: T1gt 0; T1gt 1; T2gt 1; TU2] ("S2" +== Sc (1) 2 (Ein "ijab,IJbaji->IJ" [:: ("I.oovv",0); ("U2nold[1]",0)]));
  when [:: T1gt 0; T1gt 1; T2gt 1] ("S2" +== Ein "Kia,K,IJai->IJ" [:: ("g.ov",0); ("Snold[0]",0); ("U1nold[1]",0)]);
  when [:: T1gt 0; T1gt 1; T2gt 1] ("S2" +== Sc (-1) 0 (Ein "ijab,bi,IJaj->IJ" [:: ("I.oovv",0); ("T1old",0); ("U1nold[1]",0)]))].

(** /repo/openms/mqed/qedcc_equations.py lines 407-582, [qedccsd_U1n].
    The results are "U1n[0]" and "U1n[1]"; this is the code below line 422, for
    more than one mode, lines 421-422 hand one mode to [ref_single_U1n]. *)
Definition ref_U1n : prog := [::
  when [:: T2gt 0] ("U1n[0]" :== Ein "Iai->Iai" [:: ("g.vo",0)]);
  when [:: T2gt 0] ("U1n[0]" +== Sc (-1) 0 (Ein "ji,Iaj->Iai" [:: ("F.oo",0); ("U1nold[0]",0)]));
  when [:: T2gt 0] ("U1n[0]" +== Ein "ab,Ibi->Iai" [:: ("F.vv",0); ("U1nold[0]",0)]);
  when [:: T2gt 0] ("U1n[0]" +== Ein "I,Iai->Iai" [:: ("w",0); ("U1nold[0]",0)]);
  when [:: T2gt 0] ("U1n[0]" +== Sc (-1) 0 (Ein "Iji,aj->Iai" [:: ("g.oo",0); ("T1old",0)]));
  when [:: T2gt 0] ("U1n[0]" +== Ein "Iab,bi->Iai" [:: ("g.vv",0); ("T1old",0)]);
  when [:: T2gt 0] ("U1n[0]" +== Sc (-1) 0 (Ein "Ijb,abji->Iai" [:: ("g.ov",0); ("T2old",0)]));
  when [:: T2gt 0] ("U1n[0]" +== Sc (-1) 0 (Ein "jaib,Ibj->Iai" [:: ("I.ovov",0); ("U1nold[0]",0)]));
  when [:: T2gt 0; TU2] ("U1n[0]" +== Sc (-1) 0 (Ein "jb,Iabji->Iai" [:: ("F.ov",0); ("U2nold[0]",0)]));
  when [:: T2gt 0; T2gt 1] ("U1n[0]" +== Sc (-1) 0 (Ein "Jji,IJaj->Iai" [:: ("g.oo",0); ("U1nold[1]",0)]));
  when [:: T2gt 0; T2gt 1] ("U1n[0]" +== Ein "Jab,IJbi->Iai" [:: ("g.vv",0); ("U1nold[1]",0)]);
  when [:: T2gt 0; T2gt 1] ("U1n[0]" +== Sc (-1) 0 (Ein "Jjb,aj,IJbi->Iai" [:: ("g.ov",0); ("T1old",0); ("U1nold[1]",0)]));
  when [:: T2gt 0; T2gt 1] ("U1n[0]" +== Sc (-1) 0 (Ein "Jjb,bi,IJaj->Iai" [:: ("g.ov",0); ("T1old",0); ("U1nold[1]",0)]));
  when [:: T2gt 0; T2gt 1] ("U1n[0]" +== Ein "Jjb,bj,IJai->Iai" [:: ("g.ov",0); ("T1old",0); ("U1nold[1]",0)]);
  when [:: T2gt 0; T2gt 1; TU2] ("U1n[0]" +== Sc (-5) 3 (Ein "Jjb,IJabji->Iai" [:: ("g.ov",0); ("U2nold[1]",0)]));
  when [:: T2gt 0; T2gt 1; TU2] ("U1n[0]" +== Sc (3) 3 (Ein "Jjb,JIbaji->Iai" [:: ("g.ov",0); ("U2nold[1]",0)]));
  when [:: T2gt 0; TU2] ("U1n[0]" +== Sc (1) 1 (Ein "jkib,Iabkj->Iai" [:: ("I.ooov",0); ("U2nold[0]",0)]));
  when [:: T2gt 0; TU2] ("U1n[0]" +== Sc (-1) 1 (Ein "jabc,Icbji->Iai" [:: ("I.ovvv",0); ("U2nold[0]",0)]));
  when [:: T2gt 0; TU2] ("U1n[0]" +== Sc (-1) 0 (Ein "Jjb,J,Iabji->Iai" [:: ("g.ov",0); ("Snold[0]",0); ("U2nold[0]",0)]));
  when [:: T2gt 0; TU2] ("U1n[0]" +== Sc (-1) 1 (Ein "jkbc,aj,Icbki->Iai" [:: ("I.oovv",0); ("T1old",0); ("U2nold[0]",0)]));
  when [:: T2gt 0; TU2] ("U1n[0]" +== Sc (-1) 1 (Ein "jkbc,ci,Iabkj->Iai" [:: ("I.oovv",0); ("T1old",0); ("U2nold[0]",0)]));
  when [:: T2gt 0; TU2] ("U1n[0]" +== Ein "jkbc,cj,Iabki->Iai" [:: ("I.oovv",0); ("T1old",0); ("U2nold[0]",0)]);
  when [:: T2gt 0] ("U1n[0]" +== Sc (-1) 0 (Ein "jb,aj,Ibi->Iai" [:: ("F.ov",0); ("T1old",0); ("U1nold[0]",0)]));
  when [:: T2gt 0] ("U1n[0]" +== Sc (-1) 0 (Ein "jb,bi,Iaj->Iai" [:: ("F.ov",0); ("T1old",0); ("U1nold[0]",0)]));
  when [:: T2gt 0] ("U1n[0]" +== Sc (-1) 0 (Ein "Ijb,bi,aj->Iai" [:: ("g.ov",0); ("T1old",0); ("T1old",0)]));
  when [:: T2gt 0] ("U1n[0]" +== Sc (-1) 0 (Ein "Jji,J,Iaj->Iai" [:: ("g.oo",0); ("Snold[0]",0); ("U1nold[0]",0)]));
  when [:: T2gt 0] ("U1n[0]" +== Ein "Jab,J,Ibi->Iai" [:: ("g.vv",0); ("Snold[0]",0); ("U1nold[0]",0)]);
  when [:: T2gt 0] ("U1n[0]" +== Sc (-1) 0 (Ein "Jjb,Iaj,Jbi->Iai" [:: ("g.ov",0); ("U1nold[0]",0); ("U1nold[0]",0)]));
  when [:: T2gt 0] ("U1n[0]" +== Sc (-1) 0 (Ein "Jjb,Ibi,Jaj->Iai" [:: ("g.ov",0); ("U1nold[0]",0); ("U1nold[0]",0)]));
  when [:: T2gt 0] ("U1n[0]" +== Ein "Jjb,Ibj,Jai->Iai" [:: ("g.ov",0); ("U1nold[0]",0); ("U1nold[0]",0)]);
  when [:: T2gt 0] ("U1n[0]" +== Sc (-1) 0 (Ein "jkib,aj,Ibk->Iai" [:: ("I.ooov",0); ("T1old",0); ("U1nold[0]",0)]));
  when [:: T2gt 0] ("U1n[0]" +== Ein "jkib,bj,Iak->Iai" [:: ("I.ooov",0); ("T1old",0); ("U1nold[0]",0)]);
  when [:: T2gt 0] ("U1n[0]" +== Ein "jabc,ci,Ibj->Iai" [:: ("I.ovvv",0); ("T1old",0); ("U1nold[0]",0)]);
  when [:: T2gt 0] ("U1n[0]" +== Sc (-1) 0 (Ein "jabc,cj,Ibi->Iai" [:: ("I.ovvv",0); ("T1old",0); ("U1nold[0]",0)]));
  when [:: T2gt 0] ("U1n[0]" +== Ein "jkbc,acji,Ibk->Iai" [:: ("I.oovv",0); ("T2old",0); ("U1nold[0]",0)]);
  when [:: T2gt 0] ("U1n[0]" +== Sc (1) 1 (Ein "jkbc,ackj,Ibi->Iai" [:: ("I.oovv",0); ("T2old",0); ("U1nold[0]",0)]));
  when [:: T2gt 0] ("U1n[0]" +== Sc (1) 1 (Ein "jkbc,cbji,Iak->Iai" [:: ("I.oovv",0); ("T2old",0); ("U1nold[0]",0)]));
  when [:: T2gt 0] ("U1n[0]" +== Sc (-1) 0 (Ein "Jjb,aj,J,Ibi->Iai" [:: ("g.ov",0); ("T1old",0); ("Snold[0]",0); ("U1nold[0]",0)]));
  when [:: T2gt 0] ("U1n[0]" +== Sc (-1) 0 (Ein "Jjb,bi,J,Iaj->Iai" [:: ("g.ov",0); ("T1old",0); ("Snold[0]",0); ("U1nold[0]",0)]));
  when [:: T2gt 0] ("U1n[0]" +== Sc (-1) 0 (Ein "jkbc,aj,ck,Ibi->Iai" [:: ("I.oovv",0); ("T1old",0); ("T1old",0); ("U1nold[0]",0)]));
  when [:: T2gt 0] ("U1n[0]" +== Ein "jkbc,ci,aj,Ibk->Iai" [:: ("I.oovv",0); ("T1old",0); ("T1old",0); ("U1nold[0]",0)]);
  when [:: T2gt 0] ("U1n[0]" +== Sc (-1) 0 (Ein "jkbc,ci,bj,Iak->Iai" [:: ("I.oovv",0); ("T1old",0); ("T1old",0); ("U1nold[0]",0)]));
  when [:: T2gt 0; T1gt 1] ("U1n[0]" +== Ein "Jai,IJ->Iai" [:: ("g.vo",0); ("Snold[1]",0)]);
  when [:: T2gt 0; T1gt 1] ("U1n[0]" +== Sc (-1) 0 (Ein "Jji,aj,IJ->Iai" [:: ("g.oo",0); ("T1old",0); ("Snold[1]",0)]));
  when [:: T2gt 0; T1gt 1] ("U1n[0]" +== Ein "Jab,bi,IJ->Iai" [:: ("g.vv",0); ("T1old",0); ("Snold[1]",0)]);
  when [:: T2gt 0; T1gt 1] ("U1n[0]" +== Sc (-1) 0 (Ein "Jjb,abji,IJ->Iai" [:: ("g.ov",0); ("T2old",0); ("Snold[1]",0)]));
  when [:: T2gt 0; T1gt 1] ("U1n[0]" +== Sc (-1) 0 (Ein "Jjb,bi,aj,IJ->Iai" [:: ("g.ov",0); ("T1old",0); ("T1old",0); ("Snold[1]",0)]));
  when [:: T2gt 0; T2gt 1] ("U1n[1]" :== Zero "xxvo");
  when [:: T2gt 0; T2gt 1] ("U1n[1]" +== Sc (-1) 0 (Ein "ji,IJaj->IJai" [:: ("F.oo",0); ("U1nold[1]",0)]));
  when [:: T2gt 0; T2gt 1] ("U1n[1]" +== Ein "ab,IJbi->IJai" [:: ("F.vv",0); ("U1nold[1]",0)]);
  when [:: T2gt 0; T2gt 1] ("U1n[1]" +== Ein "I,JIai->IJai" [:: ("w",0); ("U1nold[1]",0)]);
  when [:: T2gt 0; T2gt 1] ("U1n[1]" +== Ein "J,IJai->IJai" [:: ("w",0); ("U1nold[1]",0)]);
  when [:: T2gt 0; T2gt 1] ("U1n[1]" +== Sc (-1) 0 (Ein "Iji,Jaj->IJai" [:: ("g.oo",0); ("U1nold[0]",0)]));
  when [:: T2gt 0; T2gt 1] ("U1n[1]" +== Ein "Iab,Jbi->IJai" [:: ("g.vv",0); ("U1nold[0]",0)]);
  when [:: T2gt 0; T2gt 1] ("U1n[1]" +== Sc (-1) 0 (Ein "Jji,Iaj->IJai" [:: ("g.oo",0); ("U1nold[0]",0)]));
  when [:: T2gt 0; T2gt 1] ("U1n[1]" +== Ein "Jab,Ibi->IJai" [:: ("g.vv",0); ("U1nold[0]",0)]);
  when [:: T2gt 0; T2gt 1] ("U1n[1]" +== Sc (-1) 0 (Ein "jaib,IJbj->IJai" [:: ("I.ovov",0); ("U1nold[1]",0)]));
  when [:: T2gt 0; T2gt 1; TU2] ("U1n[1]" +== Sc (-5) 3 (Ein "jb,IJabji->IJai" [:: ("F.ov",0); ("U2nold[1]",0)]));
  when [:: T2gt 0; T2gt 1; TU2] ("U1n[1]" +== Sc (3) 3 (Ein "jb,JIbaji->IJai" [:: ("F.ov",0); ("U2nold[1]",0)]));
  when [:: T2gt 0; T2gt 1; TU2] ("U1n[1]" +== Sc (-1) 0 (Ein "Ijb,Jabji->IJai" [:: ("g.ov",0); ("U2nold[0]",0)]));
  when [:: T2gt 0; T2gt 1; TU2] ("U1n[1]" +== Sc (-1) 0 (Ein "Jjb,Iabji->IJai" [:: ("g.ov",0); ("U2nold[0]",0)]));
  when [:: T2gt 0; T2gt 1; TU2] ("U1n[1]" +== Sc (3) 3 (Ein "jkib,IJabkj->IJai" [:: ("I.ooov",0); ("U2nold[1]",0)]));
  when [:: T2gt 0; T2gt 1; TU2] ("U1n[1]" +== Sc (-1) 3 (Ein "jkib,JIbakj->IJai" [:: ("I.ooov",0); ("U2nold[1]",0)]));
  when [:: T2gt 0; T2gt 1; TU2] ("U1n[1]" +== Sc (-3) 3 (Ein "jabc,IJcbji->IJai" [:: ("I.ovvv",0); ("U2nold[1]",0)]));
  when [:: T2gt 0; T2gt 1; TU2] ("U1n[1]" +== Sc (1) 3 (Ein "jabc,JIcbij->IJai" [:: ("I.ovvv",0); ("U2nold[1]",0)]));
  when [:: T2gt 0; T2gt 1; TU2] ("U1n[1]" +== Sc (-5) 3 (Ein "Kjb,K,IJabji->IJai" [:: ("g.ov",0); ("Snold[0]",0); ("U2nold[1]",0)]));
  when [:: T2gt 0; T2gt 1; TU2] ("U1n[1]" +== Sc (3) 3 (Ein "Kjb,K,JIbaji->IJai" [:: ("g.ov",0); ("Snold[0]",0); ("U2nold[1]",0)]));
  when [:: T2gt 0; T2gt 1; TU2] ("U1n[1]" +== Sc (-3) 3 (Ein "jkbc,aj,IJcbki->IJai" [:: ("I.oovv",0); ("T1old",0); ("U2nold[1]",0)]));
  when [:: T2gt 0; T2gt 1; TU2] ("U1n[1]" +== Sc (1) 3 (Ein "jkbc,aj,JIcbik->IJai" [:: ("I.oovv",0); ("T1old",0); ("U2nold[1]",0)]));
  when [:: T2gt 0; T2gt 1; TU2] ("U1n[1]" +== Sc (-3) 3 (Ein "jkbc,ci,IJabkj->IJai" [:: ("I.oovv",0); ("T1old",0); ("U2nold[1]",0)]));
  when [:: T2gt 0; T2gt 1; TU2] ("U1n[1]" +== Sc (1) 3 (Ein "jkbc,ci,JIbakj->IJai" [:: ("I.oovv",0); ("T1old",0); ("U2nold[1]",0)]));
  when [:: T2gt 0; T2gt 1; TU2] ("U1n[1]" +== Sc (5) 3 (Ein "jkbc,cj,IJabki->IJai" [:: ("I.oovv",0); ("T1old",0); ("U2nold[1]",0)]));
  when [:: T2gt 0; T2gt 1; TU2] ("U1n[1]" +== Sc (-3) 3 (Ein "jkbc,cj,JIbaki->IJai" [:: ("I.oovv",0); ("T1old",0); ("U2nold[1]",0)]));
  when [:: T2gt 0; T2gt 1; TU2] ("U1n[1]" +== Sc (-1) 1 (Ein "jkbc,Iaj,Jcbki->IJai" [:: ("I.oovv",0); ("U1nold[0]",0); ("U2nold[0]",0)]));
  when [:: T2gt 0; T2gt 1; TU2] ("U1n[1]" +== Sc (-1) 1 (Ein "jkbc,Ici,Jabkj->IJai" [:: ("I.oovv",0); ("U1nold[0]",0); ("U2nold[0]",0)]));
  when [:: T2gt 0; T2gt 1; TU2] ("U1n[1]" +== Ein "jkbc,Icj,Jabki->IJai" [:: ("I.oovv",0); ("U1nold[0]",0); ("U2nold[0]",0)]);
  when [:: T2gt 0; T2gt 1; TU2] ("U1n[1]" +== Sc (-1) 1 (Ein "jkbc,Jaj,Icbki->IJai" [:: ("I.oovv",0); ("U1nold[0]",0); ("U2nold[0]",0)]));
  when [:: T2gt 0; T2gt 1; TU2] ("U1n[1]" +== Sc (-1) 1 (Ein "jkbc,Jci,Iabkj->IJai" [:: ("I.oovv",0); ("U1nold[0]",0); ("U2nold[0]",0)]));
  when [:: T2gt 0; T2gt 1; TU2] ("U1n[1]" +== Ein "jkbc,Jcj,Iabki->IJai" [:: ("I.oovv",0); ("U1nold[0]",0); ("U2nold[0]",0)]);
  when [:: T2gt 0; T2gt 1; TU2] ("U1n[1]" +== Sc (-3) 3 (Ein "jkbc,ci,IJabkj->IJai" [:: ("I.oovv",0); ("T1old",0); ("U2nold[1]",0)]));
  when [:: T2gt 0; T2gt 1; TU2] ("U1n[1]" +== Sc (1) 3 (Ein "jkbc,ci,JIbakj->IJai" [:: ("I.oovv",0); ("T1old",0); ("U2nold[1]",0)]));
  when [:: T2gt 0; T2gt 1; TU2] ("U1n[1]" +== Sc (5) 3 (Ein "jkbc,cj,IJabki->IJai" [:: ("I.oovv",0); ("T1old",0); ("U2nold[1]",0)]));
  when [:: T2gt 0; T2gt 1; TU2] ("U1n[1]" +== Sc (-3) 3 (Ein "jkbc,cj,JIbaki->IJai" [:: ("I.oovv",0); ("T1old",0); ("U2nold[1]",0)]));
  when [:: T2gt 0; T2gt 1; TU2] ("U1n[1]" +== Sc (-1) 1 (Ein "jkbc,Iaj,Jcbki->IJai" [:: ("I.oovv",0); ("U1nold[0]",0); ("U2nold[0]",0)]));
  when [:: T2gt 0; T2gt 1; TU2] ("U1n[1]" +== Sc (-1) 1 (Ein "jkbc,Ici,Jabkj->IJai" [:: ("I.oovv",0); ("U1nold[0]",0); ("U2nold[0]",0)]));
  when [:: T2gt 0; T2gt 1; TU2] ("U1n[1]" +== Ein "jkbc,Icj,Jabki->IJai" [:: ("I.oovv",0); ("U1nold[0]",0); ("U2nold[0]",0)]);
  when [:: T2gt 0; T2gt 1; TU2] ("U1n[1]" +== Sc (-1) 1 (Ein "jkbc,Jaj,Icbki->IJai" [:: ("I.oovv",0); ("U1nold[0]",0); ("U2nold[0]",0)]));
  when [:: T2gt 0; T2gt 1; TU2] ("U1n[1]" +== Sc (-1) 1 (Ein "jkbc,Jci,Iabkj->IJai" [:: ("I.oovv",0); ("U1nold[0]",0); ("U2nold[0]",0)]));
  when [:: T2gt 0; T2gt 1; TU2] ("U1n[1]" +== Ein "jkbc,Jcj,Iabki->IJai" [:: ("I.oovv",0); ("U1nold[0]",0); ("U2nold[0]",0)]);
  when [:: T2gt 0; T2gt 1; TU2; T1gt 1] ("U1n[1]" +== Sc (-1) 0 (Ein "Kjb,IK,Jabji->IJai" [:: ("g.ov",0); ("Snold[1]",0); ("U2nold[0]",0)]));
  when [:: T2gt 0; T2gt 1; TU2; T1gt 1] ("U1n[1]" +== Sc (-1) 0 (Ein "Kjb,JK,Iabji->IJai" [:: ("g.ov",0); ("Snold[1]",0); ("U2nold[0]",0)]));
  when [:: T2gt 0; T2gt 1] ("U1n[1]" +== Sc (-1) 0 (Ein "jb,aj,IJbi->IJai" [:: ("F.ov",0); ("T1old",0); ("U1nold[1]",0)]));
  when [:: T2gt 0; T2gt 1] ("U1n[1]" +== Sc (-1) 0 (Ein "jb,bi,IJaj->IJai" [:: ("F.ov",0); ("T1old",0); ("U1nold[1]",0)]));
  when [:: T2gt 0; T2gt 1] ("U1n[1]" +== Sc (-1) 0 (Ein "jb,Iaj,Jbi->IJai" [:: ("F.ov",0); ("U1nold[0]",0); ("U1nold[0]",0)]));
  when [:: T2gt 0; T2gt 1] ("U1n[1]" +== Sc (-1) 0 (Ein "jb,Ibi,Jaj->IJai" [:: ("F.ov",0); ("U1nold[0]",0); ("U1nold[0]",0)]));
  when [:: T2gt 0; T2gt 1] ("U1n[1]" +== Sc (-1) 0 (Ein "Ijb,aj,Jbi->IJai" [:: ("g.ov",0); ("T1old",0); ("U1nold[0]",0)]));
  when [:: T2gt 0; T2gt 1] ("U1n[1]" +== Sc (-1) 0 (Ein "Ijb,bi,Jaj->IJai" [:: ("g.ov",0); ("T1old",0); ("U1nold[0]",0)]));
  when [:: T2gt 0; T2gt 1] ("U1n[1]" +== Sc (-1) 0 (Ein "Jjb,aj,Ibi->IJai" [:: ("g.ov",0); ("T1old",0); ("U1nold[0]",0)]));
  when [:: T2gt 0; T2gt 1] ("U1n[1]" +== Sc (-1) 0 (Ein "Jjb,bi,Iaj->IJai" [:: ("g.ov",0); ("T1old",0); ("U1nold[0]",0)]));
  when [:: T2gt 0; T2gt 1] ("U1n[1]" +== Sc (-1) 0 (Ein "Kji,K,IJaj->IJai" [:: ("g.oo",0); ("Snold[0]",0); ("U1nold[1]",0)]));
  when [:: T2gt 0; T2gt 1; T1gt 1] ("U1n[1]" +== Sc (-1) 0 (Ein "Kji,IK,Jaj->IJai" [:: ("g.oo",0); ("Snold[1]",0); ("U1nold[0]",0)]));
  when [:: T2gt 0; T2gt 1; T1gt 1] ("U1n[1]" +== Sc (-1) 0 (Ein "Kji,JK,Iaj->IJai" [:: ("g.oo",0); ("Snold[1]",0); ("U1nold[0]",0)]));
  when [:: T2gt 0; T2gt 1; T1gt 1] ("U1n[1]" +== Ein "Kab,IK,Jbi->IJai" [:: ("g.vv",0); ("Snold[1]",0); ("U1nold[0]",0)]);
  when [:: T2gt 0; T2gt 1; T1gt 1] ("U1n[1]" +== Ein "Kab,JK,Ibi->IJai" [:: ("g.vv",0); ("Snold[1]",0); ("U1nold[0]",0)]);
  when [:: T2gt 0; T2gt 1; T1gt 1] ("U1n[1]" +== Sc (-1) 0 (Ein "Kjb,aj,IK,Jbi->IJai" [:: ("g.ov",0); ("T1old",0); ("Snold[1]",0); ("U1nold[0]",0)]));
  when [:: T2gt 0; T2gt 1; T1gt 1] ("U1n[1]" +== Sc (-1) 0 (Ein "Kjb,aj,JK,Ibi->IJai" [:: ("g.ov",0); ("T1old",0); ("Snold[1]",0); ("U1nold[0]",0)]));
  when [:: T2gt 0; T2gt 1; T1gt 1] ("U1n[1]" +== Sc (-1) 0 (Ein "Kjb,bi,IK,Jaj->IJai" [:: ("g.ov",0); ("T1old",0); ("Snold[1]",0); ("U1nold[0]",0)]));
  when [:: T2gt 0; T2gt 1; T1gt 1] ("U1n[1]" +== Sc (-1) 0 (Ein "Kjb,bi,JK,Iaj->IJai" [:: ("g.ov",0); ("T1old",0); ("Snold[1]",0); ("U1nold[0]",0)]));
  when [:: T2gt 0; T2gt 1] ("U1n[1]" +== Ein "Kab,K,IJbi->IJai" [:: ("g.vv",0); ("Snold[0]",0); ("U1nold[1]",0)]);
  when [:: T2gt 0; T2gt 1] ("U1n[1]" +== Sc (-1) 0 (Ein "Kjb,Iaj,JKbi->IJai" [:: ("g.ov",0); ("U1nold[0]",0); ("U1nold[1]",0)]));
  when [:: T2gt 0; T2gt 1] ("U1n[1]" +== Sc (-1) 0 (Ein "Kjb,Ibi,JKaj->IJai" [:: ("g.ov",0); ("U1nold[0]",0); ("U1nold[1]",0)]));
  when [:: T2gt 0; T2gt 1] ("U1n[1]" +== Ein "Kjb,Ibj,JKai->IJai" [:: ("g.ov",0); ("U1nold[0]",0); ("U1nold[1]",0)]);
  when [:: T2gt 0; T2gt 1] ("U1n[1]" +== Sc (-1) 0 (Ein "Kjb,Jaj,IKbi->IJai" [:: ("g.ov",0); ("U1nold[0]",0); ("U1nold[1]",0)]));
  when [:: T2gt 0; T2gt 1] ("U1n[1]" +== Sc (-1) 0 (Ein "Kjb,Jbi,IKaj->IJai" [:: ("g.ov",0); ("U1nold[0]",0); ("U1nold[1]",0)]));
  when [:: T2gt 0; T2gt 1] ("U1n[1]" +== Ein "Kjb,Jbj,IKai->IJai" [:: ("g.ov",0); ("U1nold[0]",0); ("U1nold[1]",0)]);
  when [:: T2gt 0; T2gt 1] ("U1n[1]" +== Ein "Kjb,Kai,IJbj->IJai" [:: ("g.ov",0); ("U1nold[0]",0); ("U1nold[1]",0)]);
  when [:: T2gt 0; T2gt 1] ("U1n[1]" +== Sc (-1) 0 (Ein "Kjb,Kaj,IJbi->IJai" [:: ("g.ov",0); ("U1nold[0]",0); ("U1nold[1]",0)]));
  when [:: T2gt 0; T2gt 1] ("U1n[1]" +== Sc (-1) 0 (Ein "Kjb,Kbi,IJaj->IJai" [:: ("g.ov",0); ("U1nold[0]",0); ("U1nold[1]",0)]));
  when [:: T2gt 0; T2gt 1] ("U1n[1]" +== Sc (-1) 0 (Ein "jkib,aj,IJbk->IJai" [:: ("I.ooov",0); ("T1old",0); ("U1nold[1]",0)]));
  when [:: T2gt 0; T2gt 1] ("U1n[1]" +== Ein "jkib,bj,IJak->IJai" [:: ("I.ooov",0); ("T1old",0); ("U1nold[1]",0)]);
  when [:: T2gt 0; T2gt 1] ("U1n[1]" +== Sc (-1) 0 (Ein "jkib,Iaj,Jbk->IJai" [:: ("I.ooov",0); ("U1nold[0]",0); ("U1nold[0]",0)]));
  when [:: T2gt 0; T2gt 1] ("U1n[1]" +== Ein "jkib,Ibj,Jak->IJai" [:: ("I.ooov",0); ("U1nold[0]",0); ("U1nold[0]",0)]);
  when [:: T2gt 0; T2gt 1] ("U1n[1]" +== Ein "jabc,ci,IJbj->IJai" [:: ("I.ovvv",0); ("T1old",0); ("U1nold[1]",0)]);
  when [:: T2gt 0; T2gt 1] ("U1n[1]" +== Sc (-1) 0 (Ein "jabc,cj,IJbi->IJai" [:: ("I.ovvv",0); ("T1old",0); ("U1nold[1]",0)]));
  when [:: T2gt 0; T2gt 1] ("U1n[1]" +== Ein "jabc,Ici,Jbj->IJai" [:: ("I.ovvv",0); ("U1nold[0]",0); ("U1nold[0]",0)]);
  when [:: T2gt 0; T2gt 1] ("U1n[1]" +== Sc (-1) 0 (Ein "jabc,Icj,Jbi->IJai" [:: ("I.ovvv",0); ("U1nold[0]",0); ("U1nold[0]",0)]));
  when [:: T2gt 0; T2gt 1] ("U1n[1]" +== Ein "jkbc,acji,IJbk->IJai" [:: ("I.oovv",0); ("T2old",0); ("U1nold[1]",0)]);
  when [:: T2gt 0; T2gt 1] ("U1n[1]" +== Sc (1) 1 (Ein "jkbc,ackj,IJbi->IJai" [:: ("I.oovv",0); ("T2old",0); ("U1nold[1]",0)]));
  when [:: T2gt 0; T2gt 1] ("U1n[1]" +== Sc (1) 1 (Ein "jkbc,cbji,IJak->IJai" [:: ("I.oovv",0); ("T2old",0); ("U1nold[1]",0)]));
  when [:: T2gt 0; T2gt 1] ("U1n[1]" +== Sc (-1) 0 (Ein "Kjb,K,Iaj,Jbi->IJai" [:: ("g.ov",0); ("Snold[0]",0); ("U1nold[0]",0); ("U1nold[0]",0)]));
  when [:: T2gt 0; T2gt 1] ("U1n[1]" +== Sc (-1) 0 (Ein "Kjb,K,Ibi,Jaj->IJai" [:: ("g.ov",0); ("Snold[0]",0); ("U1nold[0]",0); ("U1nold[0]",0)]));
  when [:: T2gt 0; T2gt 1] ("U1n[1]" +== Sc (-1) 0 (Ein "Kjb,aj,K,IJbi->IJai" [:: ("g.ov",0); ("T1old",0); ("Snold[0]",0); ("U1nold[1]",0)]));
  when [:: T2gt 0; T2gt 1] ("U1n[1]" +== Sc (-1) 0 (Ein "Kjb,bi,K,IJaj->IJai" [:: ("g.ov",0); ("T1old",0); ("Snold[0]",0); ("U1nold[1]",0)]));
  when [:: T2gt 0; T2gt 1] ("U1n[1]" +== Sc (-1) 0 (Ein "jkbc,aj,ck,IJbi->IJai" [:: ("I.oovv",0); ("T1old",0); ("T1old",0); ("U1nold[1]",0)]));
  when [:: T2gt 0; T2gt 1] ("U1n[1]" +== Ein "jkbc,aj,Ici,Jbk->IJai" [:: ("I.oovv",0); ("T1old",0); ("U1nold[0]",0); ("U1nold[0]",0)]);
  when [:: T2gt 0; T2gt 1] ("U1n[1]" +== Sc (-1) 0 (Ein "jkbc,aj,Ick,Jbi->IJai" [:: ("I.oovv",0); ("T1old",0); ("U1nold[0]",0); ("U1nold[0]",0)]));
  when [:: T2gt 0; T2gt 1] ("U1n[1]" +== Ein "jkbc,ci,aj,IJbk->IJai" [:: ("I.oovv",0); ("T1old",0); ("T1old",0); ("U1nold[1]",0)]);
  when [:: T2gt 0; T2gt 1] ("U1n[1]" +== Sc (-1) 0 (Ein "jkbc,ci,bj,IJak->IJai" [:: ("I.oovv",0); ("T1old",0); ("T1old",0); ("U1nold[1]",0)]));
  when [:: T2gt 0; T2gt 1] ("U1n[1]" +== Ein "jkbc,ci,Iaj,Jbk->IJai" [:: ("I.oovv",0); ("T1old",0); ("U1nold[0]",0); ("U1nold[0]",0)]);
  when [:: T2gt 0; T2gt 1] ("U1n[1]" +== Sc (-1) 0 (Ein "jkbc,ci,Ibj,Jak->IJai" [:: ("I.oovv",0); ("T1old",0); ("U1nold[0]",0); ("U1nold[0]",0)]));
  when [:: T2gt 0; T2gt 1] ("U1n[1]" +== Ein "jkbc,cj,Iak,Jbi->IJai" [:: ("I.oovv",0); ("T1old",0); ("U1nold[0]",0); ("U1nold[0]",0)]);
  when [:: T2gt 0; T2gt 1] ("U1n[1]" +== Ein "jkbc,cj,Ibi,Jak->IJai" [:: ("I.oovv",0); ("T1old",0); ("U1nold[0]",0); ("U1nold[0]",0)])].

(** /repo/openms/mqed/qedcc_equations.py lines 584-1214, [qedccsd_U2n].
    The results are "U2n[0]" and "U22"; this is the code below line 597, for more
    than one mode.  Line 1212 stores "U22" as the entry (0,0) of an array of zeros. *)
Definition ref_U2n : prog := [::
  when [:: TU2; T2gt 0] ("U2n[0]" :== Zero "xvvoo");
  when [:: TU2; T2gt 0] ("U2n[0]" +== Ein "ki,Ibakj->Iabij" [:: ("F.oo",0); ("U2nold[0]",0)]);
  when [:: TU2; T2gt 0] ("U2n[0]" +== Sc (-1) 0 (Ein "kj,Ibaki->Iabij" [:: ("F.oo",0); ("U2nold[0]",0)]));
  when [:: TU2; T2gt 0] ("U2n[0]" +== Ein "ac,Ibcji->Iabij" [:: ("F.vv",0); ("U2nold[0]",0)]);
  when [:: TU2; T2gt 0] ("U2n[0]" +== Sc (-1) 0 (Ein "bc,Iacji->Iabij" [:: ("F.vv",0); ("U2nold[0]",0)]));
  when [:: TU2; T2gt 0] ("U2n[0]" +== Ein "I,Ibaji->Iabij" [:: ("w",0); ("U2nold[0]",0)]);
  when [:: TU2; T2gt 0] ("U2n[0]" +== Ein "Iki,bakj->Iabij" [:: ("g.oo",0); ("T2old",0)]);
  when [:: TU2; T2gt 0] ("U2n[0]" +== Sc (-1) 0 (Ein "Ikj,baki->Iabij" [:: ("g.oo",0); ("T2old",0)]));
  when [:: TU2; T2gt 0] ("U2n[0]" +== Ein "Iac,bcji->Iabij" [:: ("g.vv",0); ("T2old",0)]);
  when [:: TU2; T2gt 0] ("U2n[0]" +== Sc (-1) 0 (Ein "Ibc,acji->Iabij" [:: ("g.vv",0); ("T2old",0)]));
  when [:: TU2; T2gt 0] ("U2n[0]" +== Sc (-1) 0 (Ein "kaji,Ibk->Iabij" [:: ("I.ovoo",0); ("U1nold[0]",0)]));
  when [:: TU2; T2gt 0] ("U2n[0]" +== Ein "kbji,Iak->Iabij" [:: ("I.ovoo",0); ("U1nold[0]",0)]);
  when [:: TU2; T2gt 0] ("U2n[0]" +== Sc (-1) 0 (Ein "baic,Icj->Iabij" [:: ("I.vvov",0); ("U1nold[0]",0)]));
  when [:: TU2; T2gt 0] ("U2n[0]" +== Ein "bajc,Ici->Iabij" [:: ("I.vvov",0); ("U1nold[0]",0)]);
  when [:: TU2; T2gt 0] ("U2n[0]" +== Sc (-1) 1 (Ein "klji,Ibalk->Iabij" [:: ("I.oooo",0); ("U2nold[0]",0)]));
  when [:: TU2; T2gt 0] ("U2n[0]" +== Ein "kaic,Ibckj->Iabij" [:: ("I.ovov",0); ("U2nold[0]",0)]);
  when [:: TU2; T2gt 0] ("U2n[0]" +== Sc (-1) 0 (Ein "kajc,Ibcki->Iabij" [:: ("I.ovov",0); ("U2nold[0]",0)]));
  when [:: TU2; T2gt 0] ("U2n[0]" +== Sc (-1) 0 (Ein "kbic,Iackj->Iabij" [:: ("I.ovov",0); ("U2nold[0]",0)]));
  when [:: TU2; T2gt 0] ("U2n[0]" +== Ein "kbjc,Iacki->Iabij" [:: ("I.ovov",0); ("U2nold[0]",0)]);
  when [:: TU2; T2gt 0] ("U2n[0]" +== Sc (-1) 1 (Ein "bacd,Idcji->Iabij" [:: ("I.vvvv",0); ("U2nold[0]",0)]));
  when [:: TU2; T2gt 0] ("U2n[0]" +== Sc (-1) 0 (Ein "kc,ak,Ibcji->Iabij" [:: ("F.ov",0); ("T1old",0); ("U2nold[0]",0)]));
  when [:: TU2; T2gt 0] ("U2n[0]" +== Ein "kc,bk,Iacji->Iabij" [:: ("F.ov",0); ("T1old",0); ("U2nold[0]",0)]);
  when [:: TU2; T2gt 0] ("U2n[0]" +== Ein "kc,ci,Ibakj->Iabij" [:: ("F.ov",0); ("T1old",0); ("U2nold[0]",0)]);
  when [:: TU2; T2gt 0] ("U2n[0]" +== Sc (-1) 0 (Ein "kc,cj,Ibaki->Iabij" [:: ("F.ov",0); ("T1old",0); ("U2nold[0]",0)]));
  when [:: TU2; T2gt 0] ("U2n[0]" +== Ein "kc,acji,Ibk->Iabij" [:: ("F.ov",0); ("T2old",0); ("U1nold[0]",0)]);
  when [:: TU2; T2gt 0] ("U2n[0]" +== Sc (-1) 0 (Ein "kc,baki,Icj->Iabij" [:: ("F.ov",0); ("T2old",0); ("U1nold[0]",0)]));
  when [:: TU2; T2gt 0] ("U2n[0]" +== Ein "kc,bakj,Ici->Iabij" [:: ("F.ov",0); ("T2old",0); ("U1nold[0]",0)]);
  when [:: TU2; T2gt 0] ("U2n[0]" +== Sc (-1) 0 (Ein "kc,bcji,Iak->Iabij" [:: ("F.ov",0); ("T2old",0); ("U1nold[0]",0)]));
  when [:: TU2; T2gt 0] ("U2n[0]" +== Sc (-1) 0 (Ein "Ikc,ak,bcji->Iabij" [:: ("g.ov",0); ("T1old",0); ("T2old",0)]));
  when [:: TU2; T2gt 0] ("U2n[0]" +== Ein "Ikc,bk,acji->Iabij" [:: ("g.ov",0); ("T1old",0); ("T2old",0)]);
  when [:: TU2; T2gt 0] ("U2n[0]" +== Ein "Ikc,ci,bakj->Iabij" [:: ("g.ov",0); ("T1old",0); ("T2old",0)]);
  when [:: TU2; T2gt 0] ("U2n[0]" +== Sc (-1) 0 (Ein "Ikc,cj,baki->Iabij" [:: ("g.ov",0); ("T1old",0); ("T2old",0)]));
  when [:: TU2; T2gt 0] ("U2n[0]" +== Ein "Jki,J,Ibakj->Iabij" [:: ("g.oo",0); ("Snold[0]",0); ("U2nold[0]",0)]);
  when [:: TU2; T2gt 0] ("U2n[0]" +== Sc (-1) 0 (Ein "Jki,Iak,Jbj->Iabij" [:: ("g.oo",0); ("U1nold[0]",0); ("U1nold[0]",0)]));
  when [:: TU2; T2gt 0] ("U2n[0]" +== Ein "Jki,Ibk,Jaj->Iabij" [:: ("g.oo",0); ("U1nold[0]",0); ("U1nold[0]",0)]);
  when [:: TU2; T2gt 0] ("U2n[0]" +== Sc (-1) 0 (Ein "Jkj,J,Ibaki->Iabij" [:: ("g.oo",0); ("Snold[0]",0); ("U2nold[0]",0)]));
  when [:: TU2; T2gt 0] ("U2n[0]" +== Ein "Jkj,Iak,Jbi->Iabij" [:: ("g.oo",0); ("U1nold[0]",0); ("U1nold[0]",0)]);
  when [:: TU2; T2gt 0] ("U2n[0]" +== Sc (-1) 0 (Ein "Jkj,Ibk,Jai->Iabij" [:: ("g.oo",0); ("U1nold[0]",0); ("U1nold[0]",0)]));
  when [:: TU2; T2gt 0] ("U2n[0]" +== Ein "Jac,J,Ibcji->Iabij" [:: ("g.vv",0); ("Snold[0]",0); ("U2nold[0]",0)]);
  when [:: TU2; T2gt 0] ("U2n[0]" +== Ein "Jac,Ici,Jbj->Iabij" [:: ("g.vv",0); ("U1nold[0]",0); ("U1nold[0]",0)]);
  when [:: TU2; T2gt 0] ("U2n[0]" +== Sc (-1) 0 (Ein "Jac,Icj,Jbi->Iabij" [:: ("g.vv",0); ("U1nold[0]",0); ("U1nold[0]",0)]));
  when [:: TU2; T2gt 0] ("U2n[0]" +== Sc (-1) 0 (Ein "Jbc,J,Iacji->Iabij" [:: ("g.vv",0); ("Snold[0]",0); ("U2nold[0]",0)]));
  when [:: TU2; T2gt 0] ("U2n[0]" +== Sc (-1) 0 (Ein "Jbc,Ici,Jaj->Iabij" [:: ("g.vv",0); ("U1nold[0]",0); ("U1nold[0]",0)]));
  when [:: TU2; T2gt 0] ("U2n[0]" +== Ein "Jbc,Icj,Jai->Iabij" [:: ("g.vv",0); ("U1nold[0]",0); ("U1nold[0]",0)]);
  when [:: TU2; T2gt 0] ("U2n[0]" +== Sc (-1) 0 (Ein "klji,ak,Ibl->Iabij" [:: ("I.oooo",0); ("T1old",0); ("U1nold[0]",0)]));
  when [:: TU2; T2gt 0] ("U2n[0]" +== Ein "klji,bk,Ial->Iabij" [:: ("I.oooo",0); ("T1old",0); ("U1nold[0]",0)]);
  when [:: TU2; T2gt 0] ("U2n[0]" +== Ein "kaic,bk,Icj->Iabij" [:: ("I.ovov",0); ("T1old",0); ("U1nold[0]",0)]);
  when [:: TU2; T2gt 0] ("U2n[0]" +== Ein "kaic,cj,Ibk->Iabij" [:: ("I.ovov",0); ("T1old",0); ("U1nold[0]",0)]);
  when [:: TU2; T2gt 0] ("U2n[0]" +== Sc (-1) 0 (Ein "kajc,bk,Ici->Iabij" [:: ("I.ovov",0); ("T1old",0); ("U1nold[0]",0)]));
  when [:: TU2; T2gt 0] ("U2n[0]" +== Sc (-1) 0 (Ein "kajc,ci,Ibk->Iabij" [:: ("I.ovov",0); ("T1old",0); ("U1nold[0]",0)]));
  when [:: TU2; T2gt 0] ("U2n[0]" +== Sc (-1) 0 (Ein "kbic,ak,Icj->Iabij" [:: ("I.ovov",0); ("T1old",0); ("U1nold[0]",0)]));
  when [:: TU2; T2gt 0] ("U2n[0]" +== Sc (-1) 0 (Ein "kbic,cj,Iak->Iabij" [:: ("I.ovov",0); ("T1old",0); ("U1nold[0]",0)]));
  when [:: TU2; T2gt 0] ("U2n[0]" +== Ein "kbjc,ak,Ici->Iabij" [:: ("I.ovov",0); ("T1old",0); ("U1nold[0]",0)]);
  when [:: TU2; T2gt 0] ("U2n[0]" +== Ein "kbjc,ci,Iak->Iabij" [:: ("I.ovov",0); ("T1old",0); ("U1nold[0]",0)]);
  when [:: TU2; T2gt 0] ("U2n[0]" +== Ein "bacd,di,Icj->Iabij" [:: ("I.vvvv",0); ("T1old",0); ("U1nold[0]",0)]);
  when [:: TU2; T2gt 0] ("U2n[0]" +== Sc (-1) 0 (Ein "bacd,dj,Ici->Iabij" [:: ("I.vvvv",0); ("T1old",0); ("U1nold[0]",0)]));
  when [:: TU2; T2gt 0] ("U2n[0]" +== Sc (-1) 0 (Ein "Jkc,Iak,Jbcji->Iabij" [:: ("g.ov",0); ("U1nold[0]",0); ("U2nold[0]",0)]));
  when [:: TU2; T2gt 0] ("U2n[0]" +== Ein "Jkc,Ibk,Jacji->Iabij" [:: ("g.ov",0); ("U1nold[0]",0); ("U2nold[0]",0)]);
  when [:: TU2; T2gt 0] ("U2n[0]" +== Ein "Jkc,Ici,Jbakj->Iabij" [:: ("g.ov",0); ("U1nold[0]",0); ("U2nold[0]",0)]);
  when [:: TU2; T2gt 0] ("U2n[0]" +== Sc (-1) 0 (Ein "Jkc,Icj,Jbaki->Iabij" [:: ("g.ov",0); ("U1nold[0]",0); ("U2nold[0]",0)]));
  when [:: TU2; T2gt 0] ("U2n[0]" +== Ein "Jkc,Ick,Jbaji->Iabij" [:: ("g.ov",0); ("U1nold[0]",0); ("U2nold[0]",0)]);
  when [:: TU2; T2gt 0] ("U2n[0]" +== Sc (-1) 0 (Ein "Jkc,Jai,Ibckj->Iabij" [:: ("g.ov",0); ("U1nold[0]",0); ("U2nold[0]",0)]));
  when [:: TU2; T2gt 0] ("U2n[0]" +== Ein "Jkc,Jaj,Ibcki->Iabij" [:: ("g.ov",0); ("U1nold[0]",0); ("U2nold[0]",0)]);
  when [:: TU2; T2gt 0] ("U2n[0]" +== Sc (-1) 0 (Ein "Jkc,Jak,Ibcji->Iabij" [:: ("g.ov",0); ("U1nold[0]",0); ("U2nold[0]",0)]));
  when [:: TU2; T2gt 0] ("U2n[0]" +== Ein "Jkc,Jbi,Iackj->Iabij" [:: ("g.ov",0); ("U1nold[0]",0); ("U2nold[0]",0)]);
  when [:: TU2; T2gt 0] ("U2n[0]" +== Sc (-1) 0 (Ein "Jkc,Jbj,Iacki->Iabij" [:: ("g.ov",0); ("U1nold[0]",0); ("U2nold[0]",0)]));
  when [:: TU2; T2gt 0] ("U2n[0]" +== Ein "Jkc,Jbk,Iacji->Iabij" [:: ("g.ov",0); ("U1nold[0]",0); ("U2nold[0]",0)]);
  when [:: TU2; T2gt 0] ("U2n[0]" +== Ein "Jkc,Jci,Ibakj->Iabij" [:: ("g.ov",0); ("U1nold[0]",0); ("U2nold[0]",0)]);
  when [:: TU2; T2gt 0] ("U2n[0]" +== Sc (-1) 0 (Ein "Jkc,Jcj,Ibaki->Iabij" [:: ("g.ov",0); ("U1nold[0]",0); ("U2nold[0]",0)]));
  when [:: TU2; T2gt 0] ("U2n[0]" +== Ein "klic,ak,Ibclj->Iabij" [:: ("I.ooov",0); ("T1old",0); ("U2nold[0]",0)]);
  when [:: TU2; T2gt 0] ("U2n[0]" +== Sc (-1) 0 (Ein "klic,bk,Iaclj->Iabij" [:: ("I.ooov",0); ("T1old",0); ("U2nold[0]",0)]));
  when [:: TU2; T2gt 0] ("U2n[0]" +== Sc (1) 1 (Ein "klic,cj,Ibalk->Iabij" [:: ("I.ooov",0); ("T1old",0); ("U2nold[0]",0)]));
  when [:: TU2; T2gt 0] ("U2n[0]" +== Sc (-1) 0 (Ein "klic,ck,Ibalj->Iabij" [:: ("I.ooov",0); ("T1old",0); ("U2nold[0]",0)]));
  when [:: TU2; T2gt 0] ("U2n[0]" +== Ein "klic,ackj,Ibl->Iabij" [:: ("I.ooov",0); ("T2old",0); ("U1nold[0]",0)]);
  when [:: TU2; T2gt 0] ("U2n[0]" +== Ein "klic,bakj,Icl->Iabij" [:: ("I.ooov",0); ("T2old",0); ("U1nold[0]",0)]);
  when [:: TU2; T2gt 0] ("U2n[0]" +== Sc (1) 1 (Ein "klic,balk,Icj->Iabij" [:: ("I.ooov",0); ("T2old",0); ("U1nold[0]",0)]));
  when [:: TU2; T2gt 0] ("U2n[0]" +== Sc (-1) 0 (Ein "klic,bckj,Ial->Iabij" [:: ("I.ooov",0); ("T2old",0); ("U1nold[0]",0)]));
  when [:: TU2; T2gt 0] ("U2n[0]" +== Sc (-1) 0 (Ein "kljc,ak,Ibcli->Iabij" [:: ("I.ooov",0); ("T1old",0); ("U2nold[0]",0)]));
  when [:: TU2; T2gt 0] ("U2n[0]" +== Ein "kljc,bk,Iacli->Iabij" [:: ("I.ooov",0); ("T1old",0); ("U2nold[0]",0)]);
  when [:: TU2; T2gt 0] ("U2n[0]" +== Sc (-1) 1 (Ein "kljc,ci,Ibalk->Iabij" [:: ("I.ooov",0); ("T1old",0); ("U2nold[0]",0)]));
  when [:: TU2; T2gt 0] ("U2n[0]" +== Ein "kljc,ck,Ibali->Iabij" [:: ("I.ooov",0); ("T1old",0); ("U2nold[0]",0)]);
  when [:: TU2; T2gt 0] ("U2n[0]" +== Sc (-1) 0 (Ein "kljc,acki,Ibl->Iabij" [:: ("I.ooov",0); ("T2old",0); ("U1nold[0]",0)]));
  when [:: TU2; T2gt 0] ("U2n[0]" +== Sc (-1) 0 (Ein "kljc,baki,Icl->Iabij" [:: ("I.ooov",0); ("T2old",0); ("U1nold[0]",0)]));
  when [:: TU2; T2gt 0] ("U2n[0]" +== Sc (-1) 1 (Ein "kljc,balk,Ici->Iabij" [:: ("I.ooov",0); ("T2old",0); ("U1nold[0]",0)]));
  when [:: TU2; T2gt 0] ("U2n[0]" +== Ein "kljc,bcki,Ial->Iabij" [:: ("I.ooov",0); ("T2old",0); ("U1nold[0]",0)]);
  when [:: TU2; T2gt 0] ("U2n[0]" +== Sc (1) 1 (Ein "kacd,bk,Idcji->Iabij" [:: ("I.ovvv",0); ("T1old",0); ("U2nold[0]",0)]));
  when [:: TU2; T2gt 0] ("U2n[0]" +== Sc (-1) 0 (Ein "kacd,di,Ibckj->Iabij" [:: ("I.ovvv",0); ("T1old",0); ("U2nold[0]",0)]));
  when [:: TU2; T2gt 0] ("U2n[0]" +== Ein "kacd,dj,Ibcki->Iabij" [:: ("I.ovvv",0); ("T1old",0); ("U2nold[0]",0)]);
  when [:: TU2; T2gt 0] ("U2n[0]" +== Sc (-1) 0 (Ein "kacd,dk,Ibcji->Iabij" [:: ("I.ovvv",0); ("T1old",0); ("U2nold[0]",0)]));
  when [:: TU2; T2gt 0] ("U2n[0]" +== Ein "kacd,bdji,Ick->Iabij" [:: ("I.ovvv",0); ("T2old",0); ("U1nold[0]",0)]);
  when [:: TU2; T2gt 0] ("U2n[0]" +== Sc (-1) 0 (Ein "kacd,bdki,Icj->Iabij" [:: ("I.ovvv",0); ("T2old",0); ("U1nold[0]",0)]));
  when [:: TU2; T2gt 0] ("U2n[0]" +== Ein "kacd,bdkj,Ici->Iabij" [:: ("I.ovvv",0); ("T2old",0); ("U1nold[0]",0)]);
  when [:: TU2; T2gt 0] ("U2n[0]" +== Sc (1) 1 (Ein "kacd,dcji,Ibk->Iabij" [:: ("I.ovvv",0); ("T2old",0); ("U1nold[0]",0)]));
  when [:: TU2; T2gt 0] ("U2n[0]" +== Sc (-1) 1 (Ein "kbcd,ak,Idcji->Iabij" [:: ("I.ovvv",0); ("T1old",0); ("U2nold[0]",0)]));
  when [:: TU2; T2gt 0] ("U2n[0]" +== Ein "kbcd,di,Iackj->Iabij" [:: ("I.ovvv",0); ("T1old",0); ("U2nold[0]",0)]);
  when [:: TU2; T2gt 0] ("U2n[0]" +== Sc (-1) 0 (Ein "kbcd,dj,Iacki->Iabij" [:: ("I.ovvv",0); ("T1old",0); ("U2nold[0]",0)]));
  when [:: TU2; T2gt 0] ("U2n[0]" +== Ein "kbcd,dk,Iacji->Iabij" [:: ("I.ovvv",0); ("T1old",0); ("U2nold[0]",0)]);
  when [:: TU2; T2gt 0] ("U2n[0]" +== Sc (-1) 0 (Ein "kbcd,adji,Ick->Iabij" [:: ("I.ovvv",0); ("T2old",0); ("U1nold[0]",0)]));
  when [:: TU2; T2gt 0] ("U2n[0]" +== Ein "kbcd,adki,Icj->Iabij" [:: ("I.ovvv",0); ("T2old",0); ("U1nold[0]",0)]);
  when [:: TU2; T2gt 0] ("U2n[0]" +== Sc (-1) 0 (Ein "kbcd,adkj,Ici->Iabij" [:: ("I.ovvv",0); ("T2old",0); ("U1nold[0]",0)]));
  when [:: TU2; T2gt 0] ("U2n[0]" +== Sc (-1) 1 (Ein "kbcd,dcji,Iak->Iabij" [:: ("I.ovvv",0); ("T2old",0); ("U1nold[0]",0)]));
  when [:: TU2; T2gt 0] ("U2n[0]" +== Sc (1) 1 (Ein "klcd,adji,Ibclk->Iabij" [:: ("I.oovv",0); ("T2old",0); ("U2nold[0]",0)]));
  when [:: TU2; T2gt 0] ("U2n[0]" +== Sc (-1) 0 (Ein "klcd,adki,Ibclj->Iabij" [:: ("I.oovv",0); ("T2old",0); ("U2nold[0]",0)]));
  when [:: TU2; T2gt 0] ("U2n[0]" +== Ein "klcd,adkj,Ibcli->Iabij" [:: ("I.oovv",0); ("T2old",0); ("U2nold[0]",0)]);
  when [:: TU2; T2gt 0] ("U2n[0]" +== Sc (1) 1 (Ein "klcd,adlk,Ibcji->Iabij" [:: ("I.oovv",0); ("T2old",0); ("U2nold[0]",0)]));
  when [:: TU2; T2gt 0] ("U2n[0]" +== Sc (-1) 1 (Ein "klcd,baki,Idclj->Iabij" [:: ("I.oovv",0); ("T2old",0); ("U2nold[0]",0)]));
  when [:: TU2; T2gt 0] ("U2n[0]" +== Sc (1) 1 (Ein "klcd,bakj,Idcli->Iabij" [:: ("I.oovv",0); ("T2old",0); ("U2nold[0]",0)]));
  when [:: TU2; T2gt 0] ("U2n[0]" +== Sc (1) 2 (Ein "klcd,balk,Idcji->Iabij" [:: ("I.oovv",0); ("T2old",0); ("U2nold[0]",0)]));
  when [:: TU2; T2gt 0] ("U2n[0]" +== Sc (-1) 1 (Ein "klcd,bdji,Iaclk->Iabij" [:: ("I.oovv",0); ("T2old",0); ("U2nold[0]",0)]));
  when [:: TU2; T2gt 0] ("U2n[0]" +== Ein "klcd,bdki,Iaclj->Iabij" [:: ("I.oovv",0); ("T2old",0); ("U2nold[0]",0)]);
  when [:: TU2; T2gt 0] ("U2n[0]" +== Sc (-1) 0 (Ein "klcd,bdkj,Iacli->Iabij" [:: ("I.oovv",0); ("T2old",0); ("U2nold[0]",0)]));
  when [:: TU2; T2gt 0] ("U2n[0]" +== Sc (-1) 1 (Ein "klcd,bdlk,Iacji->Iabij" [:: ("I.oovv",0); ("T2old",0); ("U2nold[0]",0)]));
  when [:: TU2; T2gt 0] ("U2n[0]" +== Sc (1) 2 (Ein "klcd,dcji,Ibalk->Iabij" [:: ("I.oovv",0); ("T2old",0); ("U2nold[0]",0)]));
  when [:: TU2; T2gt 0] ("U2n[0]" +== Sc (-1) 1 (Ein "klcd,dcki,Ibalj->Iabij" [:: ("I.oovv",0); ("T2old",0); ("U2nold[0]",0)]));
  when [:: TU2; T2gt 0] ("U2n[0]" +== Sc (1) 1 (Ein "klcd,dckj,Ibali->Iabij" [:: ("I.oovv",0); ("T2old",0); ("U2nold[0]",0)]));
  when [:: TU2; T2gt 0] ("U2n[0]" +== Sc (-1) 0 (Ein "Jkc,ak,J,Ibcji->Iabij" [:: ("g.ov",0); ("T1old",0); ("Snold[0]",0); ("U2nold[0]",0)]));
  when [:: TU2; T2gt 0] ("U2n[0]" +== Sc (-1) 0 (Ein "Jkc,ak,Ici,Jbj->Iabij" [:: ("g.ov",0); ("T1old",0); ("U1nold[0]",0); ("U1nold[0]",0)]));
  when [:: TU2; T2gt 0] ("U2n[0]" +== Ein "Jkc,ak,Icj,Jbi->Iabij" [:: ("g.ov",0); ("T1old",0); ("U1nold[0]",0); ("U1nold[0]",0)]);
  when [:: TU2; T2gt 0] ("U2n[0]" +== Ein "Jkc,bk,J,Iacji->Iabij" [:: ("g.ov",0); ("T1old",0); ("Snold[0]",0); ("U2nold[0]",0)]);
  when [:: TU2; T2gt 0] ("U2n[0]" +== Ein "Jkc,bk,Ici,Jaj->Iabij" [:: ("g.ov",0); ("T1old",0); ("U1nold[0]",0); ("U1nold[0]",0)]);
  when [:: TU2; T2gt 0] ("U2n[0]" +== Sc (-1) 0 (Ein "Jkc,bk,Icj,Jai->Iabij" [:: ("g.ov",0); ("T1old",0); ("U1nold[0]",0); ("U1nold[0]",0)]));
  when [:: TU2; T2gt 0] ("U2n[0]" +== Ein "Jkc,ci,J,Ibakj->Iabij" [:: ("g.ov",0); ("T1old",0); ("Snold[0]",0); ("U2nold[0]",0)]);
  when [:: TU2; T2gt 0] ("U2n[0]" +== Sc (-1) 0 (Ein "Jkc,ci,Iak,Jbj->Iabij" [:: ("g.ov",0); ("T1old",0); ("U1nold[0]",0); ("U1nold[0]",0)]));
  when [:: TU2; T2gt 0] ("U2n[0]" +== Ein "Jkc,ci,Ibk,Jaj->Iabij" [:: ("g.ov",0); ("T1old",0); ("U1nold[0]",0); ("U1nold[0]",0)]);
  when [:: TU2; T2gt 0] ("U2n[0]" +== Sc (-1) 0 (Ein "Jkc,cj,J,Ibaki->Iabij" [:: ("g.ov",0); ("T1old",0); ("Snold[0]",0); ("U2nold[0]",0)]));
  when [:: TU2; T2gt 0] ("U2n[0]" +== Ein "Jkc,cj,Iak,Jbi->Iabij" [:: ("g.ov",0); ("T1old",0); ("U1nold[0]",0); ("U1nold[0]",0)]);
  when [:: TU2; T2gt 0] ("U2n[0]" +== Sc (-1) 0 (Ein "Jkc,cj,Ibk,Jai->Iabij" [:: ("g.ov",0); ("T1old",0); ("U1nold[0]",0); ("U1nold[0]",0)]));
  when [:: TU2; T2gt 0] ("U2n[0]" +== Ein "Jkc,acji,J,Ibk->Iabij" [:: ("g.ov",0); ("T2old",0); ("Snold[0]",0); ("U1nold[0]",0)]);
  when [:: TU2; T2gt 0] ("U2n[0]" +== Sc (-1) 0 (Ein "Jkc,baki,J,Icj->Iabij" [:: ("g.ov",0); ("T2old",0); ("Snold[0]",0); ("U1nold[0]",0)]));
  when [:: TU2; T2gt 0] ("U2n[0]" +== Ein "Jkc,bakj,J,Ici->Iabij" [:: ("g.ov",0); ("T2old",0); ("Snold[0]",0); ("U1nold[0]",0)]);
  when [:: TU2; T2gt 0] ("U2n[0]" +== Sc (-1) 0 (Ein "Jkc,bcji,J,Iak->Iabij" [:: ("g.ov",0); ("T2old",0); ("Snold[0]",0); ("U1nold[0]",0)]));
  when [:: TU2; T2gt 0] ("U2n[0]" +== Sc (-1) 0 (Ein "klic,bk,al,Icj->Iabij" [:: ("I.ooov",0); ("T1old",0); ("T1old",0); ("U1nold[0]",0)]));
  when [:: TU2; T2gt 0] ("U2n[0]" +== Ein "klic,cj,ak,Ibl->Iabij" [:: ("I.ooov",0); ("T1old",0); ("T1old",0); ("U1nold[0]",0)]);
  when [:: TU2; T2gt 0] ("U2n[0]" +== Sc (-1) 0 (Ein "klic,cj,bk,Ial->Iabij" [:: ("I.ooov",0); ("T1old",0); ("T1old",0); ("U1nold[0]",0)]));
  when [:: TU2; T2gt 0] ("U2n[0]" +== Ein "kljc,bk,al,Ici->Iabij" [:: ("I.ooov",0); ("T1old",0); ("T1old",0); ("U1nold[0]",0)]);
  when [:: TU2; T2gt 0] ("U2n[0]" +== Sc (-1) 0 (Ein "kljc,ci,ak,Ibl->Iabij" [:: ("I.ooov",0); ("T1old",0); ("T1old",0); ("U1nold[0]",0)]));
  when [:: TU2; T2gt 0] ("U2n[0]" +== Ein "kljc,ci,bk,Ial->Iabij" [:: ("I.ooov",0); ("T1old",0); ("T1old",0); ("U1nold[0]",0)]);
  when [:: TU2; T2gt 0] ("U2n[0]" +== Sc (-1) 0 (Ein "kacd,di,bk,Icj->Iabij" [:: ("I.ovvv",0); ("T1old",0); ("T1old",0); ("U1nold[0]",0)]));
  when [:: TU2; T2gt 0] ("U2n[0]" +== Sc (-1) 0 (Ein "kacd,di,cj,Ibk->Iabij" [:: ("I.ovvv",0); ("T1old",0); ("T1old",0); ("U1nold[0]",0)]));
  when [:: TU2; T2gt 0] ("U2n[0]" +== Ein "kacd,dj,bk,Ici->Iabij" [:: ("I.ovvv",0); ("T1old",0); ("T1old",0); ("U1nold[0]",0)]);
  when [:: TU2; T2gt 0] ("U2n[0]" +== Ein "kbcd,di,ak,Icj->Iabij" [:: ("I.ovvv",0); ("T1old",0); ("T1old",0); ("U1nold[0]",0)]);
  when [:: TU2; T2gt 0] ("U2n[0]" +== Ein "kbcd,di,cj,Iak->Iabij" [:: ("I.ovvv",0); ("T1old",0); ("T1old",0); ("U1nold[0]",0)]);
  when [:: TU2; T2gt 0] ("U2n[0]" +== Sc (-1) 0 (Ein "kbcd,dj,ak,Ici->Iabij" [:: ("I.ovvv",0); ("T1old",0); ("T1old",0); ("U1nold[0]",0)]));
  when [:: TU2; T2gt 0] ("U2n[0]" +== Sc (-1) 0 (Ein "klcd,ak,dl,Ibcji->Iabij" [:: ("I.oovv",0); ("T1old",0); ("T1old",0); ("U2nold[0]",0)]));
  when [:: TU2; T2gt 0] ("U2n[0]" +== Ein "klcd,ak,bdji,Icl->Iabij" [:: ("I.oovv",0); ("T1old",0); ("T2old",0); ("U1nold[0]",0)]);
  when [:: TU2; T2gt 0] ("U2n[0]" +== Sc (-1) 0 (Ein "klcd,ak,bdli,Icj->Iabij" [:: ("I.oovv",0); ("T1old",0); ("T2old",0); ("U1nold[0]",0)]));
  when [:: TU2; T2gt 0] ("U2n[0]" +== Ein "klcd,ak,bdlj,Ici->Iabij" [:: ("I.oovv",0); ("T1old",0); ("T2old",0); ("U1nold[0]",0)]);
  when [:: TU2; T2gt 0] ("U2n[0]" +== Sc (1) 1 (Ein "klcd,ak,dcji,Ibl->Iabij" [:: ("I.oovv",0); ("T1old",0); ("T2old",0); ("U1nold[0]",0)]));
  when [:: TU2; T2gt 0] ("U2n[0]" +== Sc (-1) 1 (Ein "klcd,bk,al,Idcji->Iabij" [:: ("I.oovv",0); ("T1old",0); ("T1old",0); ("U2nold[0]",0)]));
  when [:: TU2; T2gt 0] ("U2n[0]" +== Ein "klcd,bk,dl,Iacji->Iabij" [:: ("I.oovv",0); ("T1old",0); ("T1old",0); ("U2nold[0]",0)]);
  when [:: TU2; T2gt 0] ("U2n[0]" +== Sc (-1) 0 (Ein "klcd,bk,adji,Icl->Iabij" [:: ("I.oovv",0); ("T1old",0); ("T2old",0); ("U1nold[0]",0)]));
  when [:: TU2; T2gt 0] ("U2n[0]" +== Ein "klcd,bk,adli,Icj->Iabij" [:: ("I.oovv",0); ("T1old",0); ("T2old",0); ("U1nold[0]",0)]);
  when [:: TU2; T2gt 0] ("U2n[0]" +== Sc (-1) 0 (Ein "klcd,bk,adlj,Ici->Iabij" [:: ("I.oovv",0); ("T1old",0); ("T2old",0); ("U1nold[0]",0)]));
  when [:: TU2; T2gt 0] ("U2n[0]" +== Sc (-1) 1 (Ein "klcd,bk,dcji,Ial->Iabij" [:: ("I.oovv",0); ("T1old",0); ("T2old",0); ("U1nold[0]",0)]));
  when [:: TU2; T2gt 0] ("U2n[0]" +== Sc (-1) 0 (Ein "klcd,di,ak,Ibclj->Iabij" [:: ("I.oovv",0); ("T1old",0); ("T1old",0); ("U2nold[0]",0)]));
  when [:: TU2; T2gt 0] ("U2n[0]" +== Ein "klcd,di,bk,Iaclj->Iabij" [:: ("I.oovv",0); ("T1old",0); ("T1old",0); ("U2nold[0]",0)]);
  when [:: TU2; T2gt 0] ("U2n[0]" +== Sc (-1) 1 (Ein "klcd,di,cj,Ibalk->Iabij" [:: ("I.oovv",0); ("T1old",0); ("T1old",0); ("U2nold[0]",0)]));
  when [:: TU2; T2gt 0] ("U2n[0]" +== Ein "klcd,di,ck,Ibalj->Iabij" [:: ("I.oovv",0); ("T1old",0); ("T1old",0); ("U2nold[0]",0)]);
  when [:: TU2; T2gt 0] ("U2n[0]" +== Sc (-1) 0 (Ein "klcd,di,ackj,Ibl->Iabij" [:: ("I.oovv",0); ("T1old",0); ("T2old",0); ("U1nold[0]",0)]));
  when [:: TU2; T2gt 0] ("U2n[0]" +== Sc (-1) 0 (Ein "klcd,di,bakj,Icl->Iabij" [:: ("I.oovv",0); ("T1old",0); ("T2old",0); ("U1nold[0]",0)]));
  when [:: TU2; T2gt 0] ("U2n[0]" +== Sc (-1) 1 (Ein "klcd,di,balk,Icj->Iabij" [:: ("I.oovv",0); ("T1old",0); ("T2old",0); ("U1nold[0]",0)]));
  when [:: TU2; T2gt 0] ("U2n[0]" +== Ein "klcd,di,bckj,Ial->Iabij" [:: ("I.oovv",0); ("T1old",0); ("T2old",0); ("U1nold[0]",0)]);
  when [:: TU2; T2gt 0] ("U2n[0]" +== Ein "klcd,dj,ak,Ibcli->Iabij" [:: ("I.oovv",0); ("T1old",0); ("T1old",0); ("U2nold[0]",0)]);
  when [:: TU2; T2gt 0] ("U2n[0]" +== Sc (-1) 0 (Ein "klcd,dj,bk,Iacli->Iabij" [:: ("I.oovv",0); ("T1old",0); ("T1old",0); ("U2nold[0]",0)]));
  when [:: TU2; T2gt 0] ("U2n[0]" +== Sc (-1) 0 (Ein "klcd,dj,ck,Ibali->Iabij" [:: ("I.oovv",0); ("T1old",0); ("T1old",0); ("U2nold[0]",0)]));
  when [:: TU2; T2gt 0] ("U2n[0]" +== Ein "klcd,dj,acki,Ibl->Iabij" [:: ("I.oovv",0); ("T1old",0); ("T2old",0); ("U1nold[0]",0)]);
  when [:: TU2; T2gt 0] ("U2n[0]" +== Ein "klcd,dj,baki,Icl->Iabij" [:: ("I.oovv",0); ("T1old",0); ("T2old",0); ("U1nold[0]",0)]);
  when [:: TU2; T2gt 0] ("U2n[0]" +== Sc (1) 1 (Ein "klcd,dj,balk,Ici->Iabij" [:: ("I.oovv",0); ("T1old",0); ("T2old",0); ("U1nold[0]",0)]));
  when [:: TU2; T2gt 0] ("U2n[0]" +== Sc (-1) 0 (Ein "klcd,dj,bcki,Ial->Iabij" [:: ("I.oovv",0); ("T1old",0); ("T2old",0); ("U1nold[0]",0)]));
  when [:: TU2; T2gt 0] ("U2n[0]" +== Sc (-1) 0 (Ein "klcd,dk,acji,Ibl->Iabij" [:: ("I.oovv",0); ("T1old",0); ("T2old",0); ("U1nold[0]",0)]));
  when [:: TU2; T2gt 0] ("U2n[0]" +== Ein "klcd,dk,bali,Icj->Iabij" [:: ("I.oovv",0); ("T1old",0); ("T2old",0); ("U1nold[0]",0)]);
  when [:: TU2; T2gt 0] ("U2n[0]" +== Sc (-1) 0 (Ein "klcd,dk,balj,Ici->Iabij" [:: ("I.oovv",0); ("T1old",0); ("T2old",0); ("U1nold[0]",0)]));
  when [:: TU2; T2gt 0] ("U2n[0]" +== Ein "klcd,dk,bcji,Ial->Iabij" [:: ("I.oovv",0); ("T1old",0); ("T2old",0); ("U1nold[0]",0)]);
  when [:: TU2; T2gt 0] ("U2n[0]" +== Ein "klcd,di,bk,al,Icj->Iabij" [:: ("I.oovv",0); ("T1old",0); ("T1old",0); ("T1old",0); ("U1nold[0]",0)]);
  when [:: TU2; T2gt 0] ("U2n[0]" +== Sc (-1) 0 (Ein "klcd,di,cj,ak,Ibl->Iabij" [:: ("I.oovv",0); ("T1old",0); ("T1old",0); ("T1old",0); ("U1nold[0]",0)]));
  when [:: TU2; T2gt 0] ("U2n[0]" +== Ein "klcd,di,cj,bk,Ial->Iabij" [:: ("I.oovv",0); ("T1old",0); ("T1old",0); ("T1old",0); ("U1nold[0]",0)]);
  when [:: TU2; T2gt 0] ("U2n[0]" +== Sc (-1) 0 (Ein "klcd,dj,bk,al,Ici->Iabij" [:: ("I.oovv",0); ("T1old",0); ("T1old",0); ("T1old",0); ("U1nold[0]",0)]));
  when [:: TU2; T2gt 0; T1gt 1] ("U2n[0]" +== Ein "Jki,bakj,IJ->Iabij" [:: ("g.oo",0); ("T2old",0); ("Snold[1]",0)]);
  when [:: TU2; T2gt 0; T1gt 1] ("U2n[0]" +== Sc (-1) 0 (Ein "Jkj,baki,IJ->Iabij" [:: ("g.oo",0); ("T2old",0); ("Snold[1]",0)]));
  when [:: TU2; T2gt 0; T1gt 1] ("U2n[0]" +== Ein "Jac,bcji,IJ->Iabij" [:: ("g.vv",0); ("T2old",0); ("Snold[1]",0)]);
  when [:: TU2; T2gt 0; T1gt 1] ("U2n[0]" +== Sc (-1) 0 (Ein "Jbc,acji,IJ->Iabij" [:: ("g.vv",0); ("T2old",0); ("Snold[1]",0)]));
  when [:: TU2; T2gt 0; T1gt 1] ("U2n[0]" +== Sc (-1) 0 (Ein "Jkc,ak,bcji,IJ->Iabij" [:: ("g.ov",0); ("T1old",0); ("T2old",0); ("Snold[1]",0)]));
  when [:: TU2; T2gt 0; T1gt 1] ("U2n[0]" +== Ein "Jkc,bk,acji,IJ->Iabij" [:: ("g.ov",0); ("T1old",0); ("T2old",0); ("Snold[1]",0)]);
  when [:: TU2; T2gt 0; T1gt 1] ("U2n[0]" +== Ein "Jkc,ci,bakj,IJ->Iabij" [:: ("g.ov",0); ("T1old",0); ("T2old",0); ("Snold[1]",0)]);
  when [:: TU2; T2gt 0; T1gt 1] ("U2n[0]" +== Sc (-1) 0 (Ein "Jkc,cj,baki,IJ->Iabij" [:: ("g.ov",0); ("T1old",0); ("T2old",0); ("Snold[1]",0)]));
  when [:: TU2; T2gt 0; T2gt 1] ("U2n[0]" +== Ein "Jai,IJbj->Iabij" [:: ("g.vo",0); ("U1nold[1]",0)]);
  when [:: TU2; T2gt 0; T2gt 1] ("U2n[0]" +== Sc (-1) 0 (Ein "Jaj,IJbi->Iabij" [:: ("g.vo",0); ("U1nold[1]",0)]));
  when [:: TU2; T2gt 0; T2gt 1] ("U2n[0]" +== Sc (-1) 0 (Ein "Jbi,IJaj->Iabij" [:: ("g.vo",0); ("U1nold[1]",0)]));
  when [:: TU2; T2gt 0; T2gt 1] ("U2n[0]" +== Ein "Jbj,IJai->Iabij" [:: ("g.vo",0); ("U1nold[1]",0)]);
  when [:: TU2; T2gt 0; T2gt 1] ("U2n[0]" +== Sc (-1) 0 (Ein "Jki,ak,IJbj->Iabij" [:: ("g.oo",0); ("T1old",0); ("U1nold[1]",0)]));
  when [:: TU2; T2gt 0; T2gt 1] ("U2n[0]" +== Ein "Jki,bk,IJaj->Iabij" [:: ("g.oo",0); ("T1old",0); ("U1nold[1]",0)]);
  when [:: TU2; T2gt 0; T2gt 1] ("U2n[0]" +== Ein "Jkj,ak,IJbi->Iabij" [:: ("g.oo",0); ("T1old",0); ("U1nold[1]",0)]);
  when [:: TU2; T2gt 0; T2gt 1] ("U2n[0]" +== Sc (-1) 0 (Ein "Jkj,bk,IJai->Iabij" [:: ("g.oo",0); ("T1old",0); ("U1nold[1]",0)]));
  when [:: TU2; T2gt 0; T2gt 1] ("U2n[0]" +== Ein "Jac,ci,IJbj->Iabij" [:: ("g.vv",0); ("T1old",0); ("U1nold[1]",0)]);
  when [:: TU2; T2gt 0; T2gt 1] ("U2n[0]" +== Sc (-1) 0 (Ein "Jac,cj,IJbi->Iabij" [:: ("g.vv",0); ("T1old",0); ("U1nold[1]",0)]));
  when [:: TU2; T2gt 0; T2gt 1] ("U2n[0]" +== Sc (-1) 0 (Ein "Jbc,ci,IJaj->Iabij" [:: ("g.vv",0); ("T1old",0); ("U1nold[1]",0)]));
  when [:: TU2; T2gt 0; T2gt 1] ("U2n[0]" +== Ein "Jbc,cj,IJai->Iabij" [:: ("g.vv",0); ("T1old",0); ("U1nold[1]",0)]);
  when [:: TU2; T2gt 0; T2gt 1] ("U2n[0]" +== Ein "Jkc,acji,IJbk->Iabij" [:: ("g.ov",0); ("T2old",0); ("U1nold[1]",0)]);
  when [:: TU2; T2gt 0; T2gt 1] ("U2n[0]" +== Sc (-1) 0 (Ein "Jkc,acki,IJbj->Iabij" [:: ("g.ov",0); ("T2old",0); ("U1nold[1]",0)]));
  when [:: TU2; T2gt 0; T2gt 1] ("U2n[0]" +== Ein "Jkc,ackj,IJbi->Iabij" [:: ("g.ov",0); ("T2old",0); ("U1nold[1]",0)]);
  when [:: TU2; T2gt 0; T2gt 1] ("U2n[0]" +== Sc (-1) 0 (Ein "Jkc,baki,IJcj->Iabij" [:: ("g.ov",0); ("T2old",0); ("U1nold[1]",0)]));
  when [:: TU2; T2gt 0; T2gt 1] ("U2n[0]" +== Ein "Jkc,bakj,IJci->Iabij" [:: ("g.ov",0); ("T2old",0); ("U1nold[1]",0)]);
  when [:: TU2; T2gt 0; T2gt 1] ("U2n[0]" +== Sc (-1) 0 (Ein "Jkc,bcji,IJak->Iabij" [:: ("g.ov",0); ("T2old",0); ("U1nold[1]",0)]));
  when [:: TU2; T2gt 0; T2gt 1] ("U2n[0]" +== Ein "Jkc,bcki,IJaj->Iabij" [:: ("g.ov",0); ("T2old",0); ("U1nold[1]",0)]);
  when [:: TU2; T2gt 0; T2gt 1] ("U2n[0]" +== Sc (-1) 0 (Ein "Jkc,bckj,IJai->Iabij" [:: ("g.ov",0); ("T2old",0); ("U1nold[1]",0)]));
  when [:: TU2; T2gt 0; T2gt 1] ("U2n[0]" +== Sc (-1) 0 (Ein "Jkc,ci,ak,IJbj->Iabij" [:: ("g.ov",0); ("T1old",0); ("T1old",0); ("U1nold[1]",0)]));
  when [:: TU2; T2gt 0; T2gt 1] ("U2n[0]" +== Ein "Jkc,ci,bk,IJaj->Iabij" [:: ("g.ov",0); ("T1old",0); ("T1old",0); ("U1nold[1]",0)]);
  when [:: TU2; T2gt 0; T2gt 1] ("U2n[0]" +== Ein "Jkc,cj,ak,IJbi->Iabij" [:: ("g.ov",0); ("T1old",0); ("T1old",0); ("U1nold[1]",0)]);
  when [:: TU2; T2gt 0; T2gt 1] ("U2n[0]" +== Sc (-1) 0 (Ein "Jkc,cj,bk,IJai->Iabij" [:: ("g.ov",0); ("T1old",0); ("T1old",0); ("U1nold[1]",0)]));
  when [:: TU2; T2gt 0; T2gt 1] ("U2n[0]" +== Sc (5) 3 (Ein "Jki,IJbakj->Iabij" [:: ("g.oo",0); ("U2nold[1]",0)]));
  when [:: TU2; T2gt 0; T2gt 1] ("U2n[0]" +== Sc (-3) 3 (Ein "Jki,JIabkj->Iabij" [:: ("g.oo",0); ("U2nold[1]",0)]));
  when [:: TU2; T2gt 0; T2gt 1] ("U2n[0]" +== Sc (-5) 3 (Ein "Jkj,IJbaki->Iabij" [:: ("g.oo",0); ("U2nold[1]",0)]));
  when [:: TU2; T2gt 0; T2gt 1] ("U2n[0]" +== Sc (3) 3 (Ein "Jkj,JIabki->Iabij" [:: ("g.oo",0); ("U2nold[1]",0)]));
  when [:: TU2; T2gt 0; T2gt 1] ("U2n[0]" +== Sc (5) 3 (Ein "Jac,IJbcji->Iabij" [:: ("g.vv",0); ("U2nold[1]",0)]));
  when [:: TU2; T2gt 0; T2gt 1] ("U2n[0]" +== Sc (-3) 3 (Ein "Jac,JIcbji->Iabij" [:: ("g.vv",0); ("U2nold[1]",0)]));
  when [:: TU2; T2gt 0; T2gt 1] ("U2n[0]" +== Sc (-5) 3 (Ein "Jbc,IJacji->Iabij" [:: ("g.vv",0); ("U2nold[1]",0)]));
  when [:: TU2; T2gt 0; T2gt 1] ("U2n[0]" +== Sc (3) 3 (Ein "Jbc,JIcaji->Iabij" [:: ("g.vv",0); ("U2nold[1]",0)]));
  when [:: TU2; T2gt 0; T2gt 1] ("U2n[0]" +== Sc (-5) 3 (Ein "Jkc,ak,IJbcji->Iabij" [:: ("g.ov",0); ("T1old",0); ("U2nold[1]",0)]));
  when [:: TU2; T2gt 0; T2gt 1] ("U2n[0]" +== Sc (3) 3 (Ein "Jkc,ak,JIcbji->Iabij" [:: ("g.ov",0); ("T1old",0); ("U2nold[1]",0)]));
  when [:: TU2; T2gt 0; T2gt 1] ("U2n[0]" +== Sc (5) 3 (Ein "Jkc,bk,IJacji->Iabij" [:: ("g.ov",0); ("T1old",0); ("U2nold[1]",0)]));
  when [:: TU2; T2gt 0; T2gt 1] ("U2n[0]" +== Sc (-3) 3 (Ein "Jkc,bk,JIcaji->Iabij" [:: ("g.ov",0); ("T1old",0); ("U2nold[1]",0)]));
  when [:: TU2; T2gt 0; T2gt 1] ("U2n[0]" +== Sc (5) 3 (Ein "Jkc,ci,IJbakj->Iabij" [:: ("g.ov",0); ("T1old",0); ("U2nold[1]",0)]));
  when [:: TU2; T2gt 0; T2gt 1] ("U2n[0]" +== Sc (-3) 3 (Ein "Jkc,ci,JIabkj->Iabij" [:: ("g.ov",0); ("T1old",0); ("U2nold[1]",0)]));
  when [:: TU2; T2gt 0; T2gt 1] ("U2n[0]" +== Sc (-5) 3 (Ein "Jkc,cj,IJbaki->Iabij" [:: ("g.ov",0); ("T1old",0); ("U2nold[1]",0)]));
  when [:: TU2; T2gt 0; T2gt 1] ("U2n[0]" +== Sc (3) 3 (Ein "Jkc,cj,JIabki->Iabij" [:: ("g.ov",0); ("T1old",0); ("U2nold[1]",0)]));
  when [:: TU2; T2gt 0; T2gt 1] ("U2n[0]" +== Sc (5) 3 (Ein "Jkc,ck,IJbaji->Iabij" [:: ("g.ov",0); ("T1old",0); ("U2nold[1]",0)]));
  when [:: TU2; T2gt 0; T2gt 1] ("U2n[0]" +== Sc (-3) 3 (Ein "Jkc,ck,JIabji->Iabij" [:: ("g.ov",0); ("T1old",0); ("U2nold[1]",0)]));
  when [:: TU2; T2gt 0; T2gt 1] ("U22" :== Zero "vvoo");
  when [:: TU2; T2gt 0; T2gt 1] ("U11old" :== At ("U1nold[0]",1));
  when [:: TU2; T2gt 0; T2gt 1] ("U12old" :== At ("U1nold[1]",2));
  when [:: TU2; T2gt 0; T2gt 1] ("U21old" :== At ("U2nold[0]",1));
  when [:: TU2; T2gt 0; T2gt 1] ("U22old" :== At ("U2nold[1]",2));
  when [:: TU2; T2gt 0; T2gt 1] ("S1old" :== At ("Snold[0]",1));
  when [:: TU2; T2gt 0; T2gt 1; T1gt 1] ("S2old" :== At ("Snold[1]",2));
  when [:: TU2; T2gt 0; T2gt 1] ("U22" +== Ein "ki,bakj->abij" [:: ("F.oo",0); ("U22old",0)]);
  when [:: TU2; T2gt 0; T2gt 1] ("U22" +== Sc (-1) 0 (Ein "kj,baki->abij" [:: ("F.oo",0); ("U22old",0)]));
  when [:: TU2; T2gt 0; T2gt 1] ("U22" +== Sc (-1) 0 (Ein "bc,acji->abij" [:: ("F.vv",0); ("U22old",0)]));
  when [:: TU2; T2gt 0; T2gt 1] ("U22" +== Ein "ac,bcji->abij" [:: ("F.vv",0); ("U22old",0)]);
  when [:: TU2; T2gt 0; T2gt 1] ("U22" +== Ein "kbji,ak->abij" [:: ("I.ovoo",0); ("U12old",0)]);
  when [:: TU2; T2gt 0; T2gt 1] ("U22" +== Sc (-1) 0 (Ein "kaji,bk->abij" [:: ("I.ovoo",0); ("U12old",0)]));
  when [:: TU2; T2gt 0; T2gt 1] ("U22" +== Sc (-1) 0 (Ein "baic,cj->abij" [:: ("I.vvov",0); ("U12old",0)]));
  when [:: TU2; T2gt 0; T2gt 1] ("U22" +== Ein "bajc,ci->abij" [:: ("I.vvov",0); ("U12old",0)]);
  when [:: TU2; T2gt 0; T2gt 1] ("U22" +== Mul ("w",1) (Ein "baji->abij" [:: ("U22old",0)]));
  when [:: TU2; T2gt 0; T2gt 1] ("U22" +== Mul ("w",1) (Ein "baji->abij" [:: ("U22old",0)]));
  when [:: TU2; T2gt 0; T2gt 1] ("U22" +== Ein "ki,bakj->abij" [:: ("g.oo",1); ("U21old",0)]);
  when [:: TU2; T2gt 0; T2gt 1] ("U22" +== Sc (-1) 0 (Ein "kj,baki->abij" [:: ("g.oo",1); ("U21old",0)]));
  when [:: TU2; T2gt 0; T2gt 1] ("U22" +== Ein "ki,bakj->abij" [:: ("g.oo",1); ("U21old",0)]);
  when [:: TU2; T2gt 0; T2gt 1] ("U22" +== Sc (-1) 0 (Ein "kj,baki->abij" [:: ("g.oo",1); ("U21old",0)]));
  when [:: TU2; T2gt 0; T2gt 1] ("U22" +== Sc (-1) 0 (Ein "bc,acji->abij" [:: ("g.vv",1); ("U21old",0)]));
  when [:: TU2; T2gt 0; T2gt 1] ("U22" +== Ein "ac,bcji->abij" [:: ("g.vv",1); ("U21old",0)]);
  when [:: TU2; T2gt 0; T2gt 1] ("U22" +== Sc (-1) 0 (Ein "bc,acji->abij" [:: ("g.vv",1); ("U21old",0)]));
  when [:: TU2; T2gt 0; T2gt 1] ("U22" +== Ein "ac,bcji->abij" [:: ("g.vv",1); ("U21old",0)]);
  when [:: TU2; T2gt 0; T2gt 1] ("U22" +== Sc (-1) 1 (Ein "klji,balk->abij" [:: ("I.oooo",0); ("U22old",0)]));
  when [:: TU2; T2gt 0; T2gt 1] ("U22" +== Sc (-1) 0 (Ein "kbic,ackj->abij" [:: ("I.ovov",0); ("U22old",0)]));
  when [:: TU2; T2gt 0; T2gt 1] ("U22" +== Ein "kaic,bckj->abij" [:: ("I.ovov",0); ("U22old",0)]);
  when [:: TU2; T2gt 0; T2gt 1] ("U22" +== Ein "kbjc,acki->abij" [:: ("I.ovov",0); ("U22old",0)]);
  when [:: TU2; T2gt 0; T2gt 1] ("U22" +== Sc (-1) 0 (Ein "kajc,bcki->abij" [:: ("I.ovov",0); ("U22old",0)]));
  when [:: TU2; T2gt 0; T2gt 1] ("U22" +== Sc (-1) 1 (Ein "bacd,dcji->abij" [:: ("I.vvvv",0); ("U22old",0)]));
  when [:: TU2; T2gt 0; T2gt 1] ("U22" +== Ein "kc,ci,bakj->abij" [:: ("F.ov",0); ("T1old",0); ("U22old",0)]);
  when [:: TU2; T2gt 0; T2gt 1] ("U22" +== Sc (-1) 0 (Ein "kc,cj,baki->abij" [:: ("F.ov",0); ("T1old",0); ("U22old",0)]));
  when [:: TU2; T2gt 0; T2gt 1] ("U22" +== Ein "kc,bk,acji->abij" [:: ("F.ov",0); ("T1old",0); ("U22old",0)]);
  when [:: TU2; T2gt 0; T2gt 1] ("U22" +== Sc (-1) 0 (Ein "kc,ak,bcji->abij" [:: ("F.ov",0); ("T1old",0); ("U22old",0)]));
  when [:: TU2; T2gt 0; T2gt 1] ("U22" +== Sc (-1) 0 (Ein "kc,bcji,ak->abij" [:: ("F.ov",0); ("T2old",0); ("U12old",0)]));
  when [:: TU2; T2gt 0; T2gt 1] ("U22" +== Ein "kc,acji,bk->abij" [:: ("F.ov",0); ("T2old",0); ("U12old",0)]);
  when [:: TU2; T2gt 0; T2gt 1] ("U22" +== Sc (-1) 0 (Ein "kc,baki,cj->abij" [:: ("F.ov",0); ("T2old",0); ("U12old",0)]));
  when [:: TU2; T2gt 0; T2gt 1] ("U22" +== Ein "kc,bakj,ci->abij" [:: ("F.ov",0); ("T2old",0); ("U12old",0)]);
  when [:: TU2; T2gt 0; T2gt 1] ("U22" +== Ein "klji,bk,al->abij" [:: ("I.oooo",0); ("T1old",0); ("U12old",0)]);
  when [:: TU2; T2gt 0; T2gt 1] ("U22" +== Sc (-1) 0 (Ein "klji,ak,bl->abij" [:: ("I.oooo",0); ("T1old",0); ("U12old",0)]));
  when [:: TU2; T2gt 0; T2gt 1] ("U22" +== Sc (-1) 0 (Ein "kbic,cj,ak->abij" [:: ("I.ovov",0); ("T1old",0); ("U12old",0)]));
  when [:: TU2; T2gt 0; T2gt 1] ("U22" +== Ein "kaic,cj,bk->abij" [:: ("I.ovov",0); ("T1old",0); ("U12old",0)]);
  when [:: TU2; T2gt 0; T2gt 1] ("U22" +== Sc (-1) 0 (Ein "kbic,ak,cj->abij" [:: ("I.ovov",0); ("T1old",0); ("U12old",0)]));
  when [:: TU2; T2gt 0; T2gt 1] ("U22" +== Ein "kaic,bk,cj->abij" [:: ("I.ovov",0); ("T1old",0); ("U12old",0)]);
  when [:: TU2; T2gt 0; T2gt 1] ("U22" +== Ein "kbjc,ci,ak->abij" [:: ("I.ovov",0); ("T1old",0); ("U12old",0)]);
  when [:: TU2; T2gt 0; T2gt 1] ("U22" +== Sc (-1) 0 (Ein "kajc,ci,bk->abij" [:: ("I.ovov",0); ("T1old",0); ("U12old",0)]));
  when [:: TU2; T2gt 0; T2gt 1] ("U22" +== Ein "kbjc,ak,ci->abij" [:: ("I.ovov",0); ("T1old",0); ("U12old",0)]);
  when [:: TU2; T2gt 0; T2gt 1] ("U22" +== Sc (-1) 0 (Ein "kajc,bk,ci->abij" [:: ("I.ovov",0); ("T1old",0); ("U12old",0)]));
  when [:: TU2; T2gt 0; T2gt 1] ("U22" +== Ein "bacd,di,cj->abij" [:: ("I.vvvv",0); ("T1old",0); ("U12old",0)]);
  when [:: TU2; T2gt 0; T2gt 1] ("U22" +== Sc (-1) 0 (Ein "bacd,dj,ci->abij" [:: ("I.vvvv",0); ("T1old",0); ("U12old",0)]));
  when [:: TU2; T2gt 0; T2gt 1] ("U22" +== Mul ("S1old",0) (Ein "ki,bakj->abij" [:: ("g.oo",1); ("U22old",0)]));
  when [:: TU2; T2gt 0; T2gt 1] ("U22" +== Sc (-1) 0 (Mul ("S1old",0) (Ein "kj,baki->abij" [:: ("g.oo",1); ("U22old",0)])));
  when [:: TU2; T2gt 0; T2gt 1; T1gt 1] ("U22" +== Mul ("S2old",0) (Ein "ki,bakj->abij" [:: ("g.oo",1); ("U21old",0)]));
  when [:: TU2; T2gt 0; T2gt 1; T1gt 1] ("U22" +== Sc (-1) 0 (Mul ("S2old",0) (Ein "kj,baki->abij" [:: ("g.oo",1); ("U21old",0)])));
  when [:: TU2; T2gt 0; T2gt 1; T1gt 1] ("U22" +== Mul ("S2old",0) (Ein "ki,bakj->abij" [:: ("g.oo",1); ("U21old",0)]));
  when [:: TU2; T2gt 0; T2gt 1; T1gt 1] ("U22" +== Sc (-1) 0 (Mul ("S2old",0) (Ein "kj,baki->abij" [:: ("g.oo",1); ("U21old",0)])));
  when [:: TU2; T2gt 0; T2gt 1; T1gt 1] ("U22" +== Sc (-1) 0 (Mul ("S2old",0) (Ein "bc,acji->abij" [:: ("g.vv",1); ("U21old",0)])));
  when [:: TU2; T2gt 0; T2gt 1; T1gt 1] ("U22" +== Mul ("S2old",0) (Ein "ac,bcji->abij" [:: ("g.vv",1); ("U21old",0)]));
  when [:: TU2; T2gt 0; T2gt 1; T1gt 1] ("U22" +== Sc (-1) 0 (Mul ("S2old",0) (Ein "bc,acji->abij" [:: ("g.vv",1); ("U21old",0)])));
  when [:: TU2; T2gt 0; T2gt 1; T1gt 1] ("U22" +== Mul ("S2old",0) (Ein "ac,bcji->abij" [:: ("g.vv",1); ("U21old",0)]));
  when [:: TU2; T2gt 0; T2gt 1; T1gt 1] ("U22" +== Mul ("S2old",0) (Ein "kc,ci,bakj->abij" [:: ("g.ov",1); ("T1old",0); ("U21old",0)]));
  when [:: TU2; T2gt 0; T2gt 1; T1gt 1] ("U22" +== Sc (-1) 0 (Mul ("S2old",0) (Ein "kc,cj,baki->abij" [:: ("g.ov",1); ("T1old",0); ("U21old",0)])));
  when [:: TU2; T2gt 0; T2gt 1; T1gt 1] ("U22" +== Mul ("S2old",0) (Ein "kc,bk,acji->abij" [:: ("g.ov",1); ("T1old",0); ("U21old",0)]));
  when [:: TU2; T2gt 0; T2gt 1; T1gt 1] ("U22" +== Sc (-1) 0 (Mul ("S2old",0) (Ein "kc,ak,bcji->abij" [:: ("g.ov",1); ("T1old",0); ("U21old",0)])));
  when [:: TU2; T2gt 0; T2gt 1; T1gt 1] ("U22" +== Mul ("S2old",0) (Ein "kc,ci,bakj->abij" [:: ("g.ov",1); ("T1old",0); ("U21old",0)]));
  when [:: TU2; T2gt 0; T2gt 1; T1gt 1] ("U22" +== Sc (-1) 0 (Mul ("S2old",0) (Ein "kc,cj,baki->abij" [:: ("g.ov",1); ("T1old",0); ("U21old",0)])));
  when [:: TU2; T2gt 0; T2gt 1; T1gt 1] ("U22" +== Mul ("S2old",0) (Ein "kc,bk,acji->abij" [:: ("g.ov",1); ("T1old",0); ("U21old",0)]));
  when [:: TU2; T2gt 0; T2gt 1; T1gt 1] ("U22" +== Sc (-1) 0 (Mul ("S2old",0) (Ein "kc,ak,bcji->abij" [:: ("g.ov",1); ("T1old",0); ("U21old",0)])));
  when [:: TU2; T2gt 0; T2gt 1; T1gt 1] ("U22" +== Sc (-1) 0 (Mul ("S2old",0) (Ein "kc,bcji,ak->abij" [:: ("g.ov",1); ("T2old",0); ("U11old",0)])));
  when [:: TU2; T2gt 0; T2gt 1; T1gt 1] ("U22" +== Mul ("S2old",0) (Ein "kc,acji,bk->abij" [:: ("g.ov",1); ("T2old",0); ("U11old",0)]));
  when [:: TU2; T2gt 0; T2gt 1; T1gt 1] ("U22" +== Sc (-1) 0 (Mul ("S2old",0) (Ein "kc,baki,cj->abij" [:: ("g.ov",1); ("T2old",0); ("U11old",0)])));
  when [:: TU2; T2gt 0; T2gt 1; T1gt 1] ("U22" +== Mul ("S2old",0) (Ein "kc,bakj,ci->abij" [:: ("g.ov",1); ("T2old",0); ("U11old",0)]));
  when [:: TU2; T2gt 0; T2gt 1; T1gt 1] ("U22" +== Sc (-1) 0 (Mul ("S2old",0) (Ein "kc,bcji,ak->abij" [:: ("g.ov",1); ("T2old",0); ("U11old",0)])));
  when [:: TU2; T2gt 0; T2gt 1; T1gt 1] ("U22" +== Mul ("S2old",0) (Ein "kc,acji,bk->abij" [:: ("g.ov",1); ("T2old",0); ("U11old",0)]));
  when [:: TU2; T2gt 0; T2gt 1; T1gt 1] ("U22" +== Sc (-1) 0 (Mul ("S2old",0) (Ein "kc,baki,cj->abij" [:: ("g.ov",1); ("T2old",0); ("U11old",0)])));
  when [:: TU2; T2gt 0; T2gt 1; T1gt 1] ("U22" +== Mul ("S2old",0) (Ein "kc,bakj,ci->abij" [:: ("g.ov",1); ("T2old",0); ("U11old",0)]));
  when [:: TU2; T2gt 0; T2gt 1] ("U22" +== Ein "kc,ci,bakj->abij" [:: ("g.ov",1); ("T1old",0); ("U21old",0)]);
  when [:: TU2; T2gt 0; T2gt 1] ("U22" +== Sc (-1) 0 (Ein "kc,cj,baki->abij" [:: ("g.ov",1); ("T1old",0); ("U21old",0)]));
  when [:: TU2; T2gt 0; T2gt 1] ("U22" +== Ein "kc,bk,acji->abij" [:: ("g.ov",1); ("T1old",0); ("U21old",0)]);
  when [:: TU2; T2gt 0; T2gt 1] ("U22" +== Sc (-1) 0 (Ein "kc,ak,bcji->abij" [:: ("g.ov",1); ("T1old",0); ("U21old",0)]));
  when [:: TU2; T2gt 0; T2gt 1] ("U22" +== Ein "kc,ci,bakj->abij" [:: ("g.ov",1); ("T1old",0); ("U21old",0)]);
  when [:: TU2; T2gt 0; T2gt 1] ("U22" +== Sc (-1) 0 (Ein "kc,cj,baki->abij" [:: ("g.ov",1); ("T1old",0); ("U21old",0)]));
  when [:: TU2; T2gt 0; T2gt 1] ("U22" +== Ein "kc,bk,acji->abij" [:: ("g.ov",1); ("T1old",0); ("U21old",0)]);
  when [:: TU2; T2gt 0; T2gt 1] ("U22" +== Sc (-1) 0 (Ein "kc,ak,bcji->abij" [:: ("g.ov",1); ("T1old",0); ("U21old",0)]));
  when [:: TU2; T2gt 0; T2gt 1] ("U22" +== Sc (-1) 0 (Ein "kc,bcji,ak->abij" [:: ("g.ov",1); ("T2old",0); ("U11old",0)]));
  when [:: TU2; T2gt 0; T2gt 1] ("U22" +== Ein "kc,acji,bk->abij" [:: ("g.ov",1); ("T2old",0); ("U11old",0)]);
  when [:: TU2; T2gt 0; T2gt 1] ("U22" +== Sc (-1) 0 (Ein "kc,baki,cj->abij" [:: ("g.ov",1); ("T2old",0); ("U11old",0)]));
  when [:: TU2; T2gt 0; T2gt 1] ("U22" +== Ein "kc,bakj,ci->abij" [:: ("g.ov",1); ("T2old",0); ("U11old",0)]);
  when [:: TU2; T2gt 0; T2gt 1] ("U22" +== Sc (-1) 0 (Ein "kc,bcji,ak->abij" [:: ("g.ov",1); ("T2old",0); ("U11old",0)]));
  when [:: TU2; T2gt 0; T2gt 1] ("U22" +== Ein "kc,acji,bk->abij" [:: ("g.ov",1); ("T2old",0); ("U11old",0)]);
  when [:: TU2; T2gt 0; T2gt 1] ("U22" +== Sc (-1) 0 (Ein "kc,baki,cj->abij" [:: ("g.ov",1); ("T2old",0); ("U11old",0)]));
  when [:: TU2; T2gt 0; T2gt 1] ("U22" +== Ein "kc,bakj,ci->abij" [:: ("g.ov",1); ("T2old",0); ("U11old",0)]);
  when [:: TU2; T2gt 0; T2gt 1] ("U22" +== Sc (-1) 0 (Mul ("S1old",0) (Ein "bc,acji->abij" [:: ("g.vv",1); ("U22old",0)])));
  when [:: TU2; T2gt 0; T2gt 1] ("U22" +== Mul ("S1old",0) (Ein "ac,bcji->abij" [:: ("g.vv",1); ("U22old",0)]));
  when [:: TU2; T2gt 0; T2gt 1] ("U22" +== Sc (1) 1 (Ein "klic,cj,balk->abij" [:: ("I.ooov",0); ("T1old",0); ("U22old",0)]));
  when [:: TU2; T2gt 0; T2gt 1] ("U22" +== Sc (-1) 0 (Ein "klic,bk,aclj->abij" [:: ("I.ooov",0); ("T1old",0); ("U22old",0)]));
  when [:: TU2; T2gt 0; T2gt 1] ("U22" +== Ein "klic,ak,bclj->abij" [:: ("I.ooov",0); ("T1old",0); ("U22old",0)]);
  when [:: TU2; T2gt 0; T2gt 1] ("U22" +== Sc (-1) 0 (Ein "klic,ck,balj->abij" [:: ("I.ooov",0); ("T1old",0); ("U22old",0)]));
  when [:: TU2; T2gt 0; T2gt 1] ("U22" +== Sc (-1) 1 (Ein "kljc,ci,balk->abij" [:: ("I.ooov",0); ("T1old",0); ("U22old",0)]));
  when [:: TU2; T2gt 0; T2gt 1] ("U22" +== Ein "kljc,bk,acli->abij" [:: ("I.ooov",0); ("T1old",0); ("U22old",0)]);
  when [:: TU2; T2gt 0; T2gt 1] ("U22" +== Sc (-1) 0 (Ein "kljc,ak,bcli->abij" [:: ("I.ooov",0); ("T1old",0); ("U22old",0)]));
  when [:: TU2; T2gt 0; T2gt 1] ("U22" +== Ein "kljc,ck,bali->abij" [:: ("I.ooov",0); ("T1old",0); ("U22old",0)]);
  when [:: TU2; T2gt 0; T2gt 1] ("U22" +== Ein "klic,bakj,cl->abij" [:: ("I.ooov",0); ("T2old",0); ("U12old",0)]);
  when [:: TU2; T2gt 0; T2gt 1] ("U22" +== Sc (-1) 0 (Ein "klic,bckj,al->abij" [:: ("I.ooov",0); ("T2old",0); ("U12old",0)]));
  when [:: TU2; T2gt 0; T2gt 1] ("U22" +== Ein "klic,ackj,bl->abij" [:: ("I.ooov",0); ("T2old",0); ("U12old",0)]);
  when [:: TU2; T2gt 0; T2gt 1] ("U22" +== Sc (1) 1 (Ein "klic,balk,cj->abij" [:: ("I.ooov",0); ("T2old",0); ("U12old",0)]));
  when [:: TU2; T2gt 0; T2gt 1] ("U22" +== Sc (-1) 0 (Ein "kljc,baki,cl->abij" [:: ("I.ooov",0); ("T2old",0); ("U12old",0)]));
  when [:: TU2; T2gt 0; T2gt 1] ("U22" +== Ein "kljc,bcki,al->abij" [:: ("I.ooov",0); ("T2old",0); ("U12old",0)]);
  when [:: TU2; T2gt 0; T2gt 1] ("U22" +== Sc (-1) 0 (Ein "kljc,acki,bl->abij" [:: ("I.ooov",0); ("T2old",0); ("U12old",0)]));
  when [:: TU2; T2gt 0; T2gt 1] ("U22" +== Sc (-1) 1 (Ein "kljc,balk,ci->abij" [:: ("I.ooov",0); ("T2old",0); ("U12old",0)]));
  when [:: TU2; T2gt 0; T2gt 1] ("U22" +== Ein "kbcd,di,ackj->abij" [:: ("I.ovvv",0); ("T1old",0); ("U22old",0)]);
  when [:: TU2; T2gt 0; T2gt 1] ("U22" +== Sc (-1) 0 (Ein "kacd,di,bckj->abij" [:: ("I.ovvv",0); ("T1old",0); ("U22old",0)]));
  when [:: TU2; T2gt 0; T2gt 1] ("U22" +== Sc (-1) 0 (Ein "kbcd,dj,acki->abij" [:: ("I.ovvv",0); ("T1old",0); ("U22old",0)]));
  when [:: TU2; T2gt 0; T2gt 1] ("U22" +== Ein "kacd,dj,bcki->abij" [:: ("I.ovvv",0); ("T1old",0); ("U22old",0)]);
  when [:: TU2; T2gt 0; T2gt 1] ("U22" +== Sc (-1) 1 (Ein "kbcd,ak,dcji->abij" [:: ("I.ovvv",0); ("T1old",0); ("U22old",0)]));
  when [:: TU2; T2gt 0; T2gt 1] ("U22" +== Ein "kbcd,dk,acji->abij" [:: ("I.ovvv",0); ("T1old",0); ("U22old",0)]);
  when [:: TU2; T2gt 0; T2gt 1] ("U22" +== Sc (1) 1 (Ein "kacd,bk,dcji->abij" [:: ("I.ovvv",0); ("T1old",0); ("U22old",0)]));
  when [:: TU2; T2gt 0; T2gt 1] ("U22" +== Sc (-1) 0 (Ein "kacd,dk,bcji->abij" [:: ("I.ovvv",0); ("T1old",0); ("U22old",0)]));
  when [:: TU2; T2gt 0; T2gt 1] ("U22" +== Sc (-1) 0 (Ein "kbcd,adji,ck->abij" [:: ("I.ovvv",0); ("T2old",0); ("U12old",0)]));
  when [:: TU2; T2gt 0; T2gt 1] ("U22" +== Sc (-1) 1 (Ein "kbcd,dcji,ak->abij" [:: ("I.ovvv",0); ("T2old",0); ("U12old",0)]));
  when [:: TU2; T2gt 0; T2gt 1] ("U22" +== Ein "kacd,bdji,ck->abij" [:: ("I.ovvv",0); ("T2old",0); ("U12old",0)]);
  when [:: TU2; T2gt 0; T2gt 1] ("U22" +== Sc (1) 1 (Ein "kacd,dcji,bk->abij" [:: ("I.ovvv",0); ("T2old",0); ("U12old",0)]));
  when [:: TU2; T2gt 0; T2gt 1] ("U22" +== Ein "kbcd,adki,cj->abij" [:: ("I.ovvv",0); ("T2old",0); ("U12old",0)]);
  when [:: TU2; T2gt 0; T2gt 1] ("U22" +== Sc (-1) 0 (Ein "kacd,bdki,cj->abij" [:: ("I.ovvv",0); ("T2old",0); ("U12old",0)]));
  when [:: TU2; T2gt 0; T2gt 1] ("U22" +== Sc (-1) 0 (Ein "kbcd,adkj,ci->abij" [:: ("I.ovvv",0); ("T2old",0); ("U12old",0)]));
  when [:: TU2; T2gt 0; T2gt 1] ("U22" +== Ein "kacd,bdkj,ci->abij" [:: ("I.ovvv",0); ("T2old",0); ("U12old",0)]);
  when [:: TU2; T2gt 0; T2gt 1] ("U22" +== Sc (-1) 1 (Ein "klcd,bdji,aclk->abij" [:: ("I.oovv",0); ("T2old",0); ("U22old",0)]));
  when [:: TU2; T2gt 0; T2gt 1] ("U22" +== Sc (1) 1 (Ein "klcd,adji,bclk->abij" [:: ("I.oovv",0); ("T2old",0); ("U22old",0)]));
  when [:: TU2; T2gt 0; T2gt 1] ("U22" +== Sc (1) 2 (Ein "klcd,dcji,balk->abij" [:: ("I.oovv",0); ("T2old",0); ("U22old",0)]));
  when [:: TU2; T2gt 0; T2gt 1] ("U22" +== Sc (-1) 1 (Ein "klcd,baki,dclj->abij" [:: ("I.oovv",0); ("T2old",0); ("U22old",0)]));
  when [:: TU2; T2gt 0; T2gt 1] ("U22" +== Ein "klcd,bdki,aclj->abij" [:: ("I.oovv",0); ("T2old",0); ("U22old",0)]);
  when [:: TU2; T2gt 0; T2gt 1] ("U22" +== Sc (-1) 0 (Ein "klcd,adki,bclj->abij" [:: ("I.oovv",0); ("T2old",0); ("U22old",0)]));
  when [:: TU2; T2gt 0; T2gt 1] ("U22" +== Sc (-1) 1 (Ein "klcd,dcki,balj->abij" [:: ("I.oovv",0); ("T2old",0); ("U22old",0)]));
  when [:: TU2; T2gt 0; T2gt 1] ("U22" +== Sc (1) 1 (Ein "klcd,bakj,dcli->abij" [:: ("I.oovv",0); ("T2old",0); ("U22old",0)]));
  when [:: TU2; T2gt 0; T2gt 1] ("U22" +== Sc (-1) 0 (Ein "klcd,bdkj,acli->abij" [:: ("I.oovv",0); ("T2old",0); ("U22old",0)]));
  when [:: TU2; T2gt 0; T2gt 1] ("U22" +== Ein "klcd,adkj,bcli->abij" [:: ("I.oovv",0); ("T2old",0); ("U22old",0)]);
  when [:: TU2; T2gt 0; T2gt 1] ("U22" +== Sc (1) 1 (Ein "klcd,dckj,bali->abij" [:: ("I.oovv",0); ("T2old",0); ("U22old",0)]));
  when [:: TU2; T2gt 0; T2gt 1] ("U22" +== Sc (1) 2 (Ein "klcd,balk,dcji->abij" [:: ("I.oovv",0); ("T2old",0); ("U22old",0)]));
  when [:: TU2; T2gt 0; T2gt 1] ("U22" +== Sc (-1) 1 (Ein "klcd,bdlk,acji->abij" [:: ("I.oovv",0); ("T2old",0); ("U22old",0)]));
  when [:: TU2; T2gt 0; T2gt 1] ("U22" +== Sc (1) 1 (Ein "klcd,adlk,bcji->abij" [:: ("I.oovv",0); ("T2old",0); ("U22old",0)]));
  when [:: TU2; T2gt 0; T2gt 1] ("U22" +== Sc (2) 0 (Ein "kc,ci,bakj->abij" [:: ("F.ov",0); ("U11old",0); ("U21old",0)]));
  when [:: TU2; T2gt 0; T2gt 1] ("U22" +== Sc (-2) 0 (Ein "kc,cj,baki->abij" [:: ("F.ov",0); ("U11old",0); ("U21old",0)]));
  when [:: TU2; T2gt 0; T2gt 1] ("U22" +== Sc (2) 0 (Ein "kc,bk,acji->abij" [:: ("F.ov",0); ("U11old",0); ("U21old",0)]));
  when [:: TU2; T2gt 0; T2gt 1] ("U22" +== Sc (-2) 0 (Ein "kc,ak,bcji->abij" [:: ("F.ov",0); ("U11old",0); ("U21old",0)]));
  when [:: TU2; T2gt 0; T2gt 1] ("U22" +== Sc (2) 0 (Ein "klji,bk,al->abij" [:: ("I.oooo",0); ("U11old",0); ("U11old",0)]));
  when [:: TU2; T2gt 0; T2gt 1] ("U22" +== Sc (-2) 0 (Ein "kbic,cj,ak->abij" [:: ("I.ovov",0); ("U11old",0); ("U11old",0)]));
  when [:: TU2; T2gt 0; T2gt 1] ("U22" +== Sc (2) 0 (Ein "kaic,cj,bk->abij" [:: ("I.ovov",0); ("U11old",0); ("U11old",0)]));
  when [:: TU2; T2gt 0; T2gt 1] ("U22" +== Sc (2) 0 (Ein "kbjc,ci,ak->abij" [:: ("I.ovov",0); ("U11old",0); ("U11old",0)]));
  when [:: TU2; T2gt 0; T2gt 1] ("U22" +== Sc (-2) 0 (Ein "kajc,ci,bk->abij" [:: ("I.ovov",0); ("U11old",0); ("U11old",0)]));
  when [:: TU2; T2gt 0; T2gt 1] ("U22" +== Sc (2) 0 (Ein "bacd,di,cj->abij" [:: ("I.vvvv",0); ("U11old",0); ("U11old",0)]));
  when [:: TU2; T2gt 0; T2gt 1] ("U22" +== Ein "ki,bk,aj->abij" [:: ("g.oo",1); ("U11old",0); ("U12old",0)]);
  when [:: TU2; T2gt 0; T2gt 1] ("U22" +== Sc (-1) 0 (Ein "ki,ak,bj->abij" [:: ("g.oo",1); ("U11old",0); ("U12old",0)]));
  when [:: TU2; T2gt 0; T2gt 1] ("U22" +== Sc (-1) 0 (Ein "kj,bk,ai->abij" [:: ("g.oo",1); ("U11old",0); ("U12old",0)]));
  when [:: TU2; T2gt 0; T2gt 1] ("U22" +== Ein "kj,ak,bi->abij" [:: ("g.oo",1); ("U11old",0); ("U12old",0)]);
  when [:: TU2; T2gt 0; T2gt 1] ("U22" +== Ein "ki,bk,aj->abij" [:: ("g.oo",1); ("U11old",0); ("U12old",0)]);
  when [:: TU2; T2gt 0; T2gt 1] ("U22" +== Sc (-1) 0 (Ein "ki,ak,bj->abij" [:: ("g.oo",1); ("U11old",0); ("U12old",0)]));
  when [:: TU2; T2gt 0; T2gt 1] ("U22" +== Sc (-1) 0 (Ein "kj,bk,ai->abij" [:: ("g.oo",1); ("U11old",0); ("U12old",0)]));
  when [:: TU2; T2gt 0; T2gt 1] ("U22" +== Ein "kj,ak,bi->abij" [:: ("g.oo",1); ("U11old",0); ("U12old",0)]);
  when [:: TU2; T2gt 0; T2gt 1] ("U22" +== Sc (-1) 0 (Ein "ki,bj,ak->abij" [:: ("g.oo",1); ("U11old",0); ("U12old",0)]));
  when [:: TU2; T2gt 0; T2gt 1] ("U22" +== Ein "ki,aj,bk->abij" [:: ("g.oo",1); ("U11old",0); ("U12old",0)]);
  when [:: TU2; T2gt 0; T2gt 1] ("U22" +== Ein "kj,bi,ak->abij" [:: ("g.oo",1); ("U11old",0); ("U12old",0)]);
  when [:: TU2; T2gt 0; T2gt 1] ("U22" +== Sc (-1) 0 (Ein "kj,ai,bk->abij" [:: ("g.oo",1); ("U11old",0); ("U12old",0)]));
  when [:: TU2; T2gt 0; T2gt 1] ("U22" +== Sc (-1) 0 (Ein "bc,ci,aj->abij" [:: ("g.vv",1); ("U11old",0); ("U12old",0)]));
  when [:: TU2; T2gt 0; T2gt 1] ("U22" +== Ein "ac,ci,bj->abij" [:: ("g.vv",1); ("U11old",0); ("U12old",0)]);
  when [:: TU2; T2gt 0; T2gt 1] ("U22" +== Ein "bc,cj,ai->abij" [:: ("g.vv",1); ("U11old",0); ("U12old",0)]);
  when [:: TU2; T2gt 0; T2gt 1] ("U22" +== Sc (-1) 0 (Ein "ac,cj,bi->abij" [:: ("g.vv",1); ("U11old",0); ("U12old",0)]));
  when [:: TU2; T2gt 0; T2gt 1] ("U22" +== Sc (-1) 0 (Ein "bc,ci,aj->abij" [:: ("g.vv",1); ("U11old",0); ("U12old",0)]));
  when [:: TU2; T2gt 0; T2gt 1] ("U22" +== Ein "ac,ci,bj->abij" [:: ("g.vv",1); ("U11old",0); ("U12old",0)]);
  when [:: TU2; T2gt 0; T2gt 1] ("U22" +== Ein "bc,cj,ai->abij" [:: ("g.vv",1); ("U11old",0); ("U12old",0)]);
  when [:: TU2; T2gt 0; T2gt 1] ("U22" +== Sc (-1) 0 (Ein "ac,cj,bi->abij" [:: ("g.vv",1); ("U11old",0); ("U12old",0)]));
  when [:: TU2; T2gt 0; T2gt 1] ("U22" +== Ein "bc,ai,cj->abij" [:: ("g.vv",1); ("U11old",0); ("U12old",0)]);
  when [:: TU2; T2gt 0; T2gt 1] ("U22" +== Sc (-1) 0 (Ein "ac,bi,cj->abij" [:: ("g.vv",1); ("U11old",0); ("U12old",0)]));
  when [:: TU2; T2gt 0; T2gt 1] ("U22" +== Sc (-1) 0 (Ein "bc,aj,ci->abij" [:: ("g.vv",1); ("U11old",0); ("U12old",0)]));
  when [:: TU2; T2gt 0; T2gt 1] ("U22" +== Ein "ac,bj,ci->abij" [:: ("g.vv",1); ("U11old",0); ("U12old",0)]);
  when [:: TU2; T2gt 0; T2gt 1] ("U22" +== Ein "klic,cj,balk->abij" [:: ("I.ooov",0); ("U11old",0); ("U21old",0)]);
  when [:: TU2; T2gt 0; T2gt 1] ("U22" +== Sc (-2) 0 (Ein "klic,bk,aclj->abij" [:: ("I.ooov",0); ("U11old",0); ("U21old",0)]));
  when [:: TU2; T2gt 0; T2gt 1] ("U22" +== Sc (2) 0 (Ein "klic,ak,bclj->abij" [:: ("I.ooov",0); ("U11old",0); ("U21old",0)]));
  when [:: TU2; T2gt 0; T2gt 1] ("U22" +== Sc (-2) 0 (Ein "klic,ck,balj->abij" [:: ("I.ooov",0); ("U11old",0); ("U21old",0)]));
  when [:: TU2; T2gt 0; T2gt 1] ("U22" +== Sc (-1) 0 (Ein "kljc,ci,balk->abij" [:: ("I.ooov",0); ("U11old",0); ("U21old",0)]));
  when [:: TU2; T2gt 0; T2gt 1] ("U22" +== Sc (2) 0 (Ein "kljc,bk,acli->abij" [:: ("I.ooov",0); ("U11old",0); ("U21old",0)]));
  when [:: TU2; T2gt 0; T2gt 1] ("U22" +== Sc (-2) 0 (Ein "kljc,ak,bcli->abij" [:: ("I.ooov",0); ("U11old",0); ("U21old",0)]));
  when [:: TU2; T2gt 0; T2gt 1] ("U22" +== Sc (2) 0 (Ein "kljc,ck,bali->abij" [:: ("I.ooov",0); ("U11old",0); ("U21old",0)]));
  when [:: TU2; T2gt 0; T2gt 1] ("U22" +== Sc (2) 0 (Ein "kbcd,di,ackj->abij" [:: ("I.ovvv",0); ("U11old",0); ("U21old",0)]));
  when [:: TU2; T2gt 0; T2gt 1] ("U22" +== Sc (-2) 0 (Ein "kacd,di,bckj->abij" [:: ("I.ovvv",0); ("U11old",0); ("U21old",0)]));
  when [:: TU2; T2gt 0; T2gt 1] ("U22" +== Sc (-2) 0 (Ein "kbcd,dj,acki->abij" [:: ("I.ovvv",0); ("U11old",0); ("U21old",0)]));
  when [:: TU2; T2gt 0; T2gt 1] ("U22" +== Sc (2) 0 (Ein "kacd,dj,bcki->abij" [:: ("I.ovvv",0); ("U11old",0); ("U21old",0)]));
  when [:: TU2; T2gt 0; T2gt 1] ("U22" +== Sc (-1) 0 (Ein "kbcd,ak,dcji->abij" [:: ("I.ovvv",0); ("U11old",0); ("U21old",0)]));
  when [:: TU2; T2gt 0; T2gt 1] ("U22" +== Sc (2) 0 (Ein "kbcd,dk,acji->abij" [:: ("I.ovvv",0); ("U11old",0); ("U21old",0)]));
  when [:: TU2; T2gt 0; T2gt 1] ("U22" +== Ein "kacd,bk,dcji->abij" [:: ("I.ovvv",0); ("U11old",0); ("U21old",0)]);
  when [:: TU2; T2gt 0; T2gt 1] ("U22" +== Sc (-2) 0 (Ein "kacd,dk,bcji->abij" [:: ("I.ovvv",0); ("U11old",0); ("U21old",0)]));
  when [:: TU2; T2gt 0; T2gt 1] ("U22" +== Ein "kc,ci,bakj->abij" [:: ("g.ov",1); ("U11old",0); ("U22old",0)]);
  when [:: TU2; T2gt 0; T2gt 1] ("U22" +== Sc (-1) 0 (Ein "kc,cj,baki->abij" [:: ("g.ov",1); ("U11old",0); ("U22old",0)]));
  when [:: TU2; T2gt 0; T2gt 1] ("U22" +== Ein "kc,bk,acji->abij" [:: ("g.ov",1); ("U11old",0); ("U22old",0)]);
  when [:: TU2; T2gt 0; T2gt 1] ("U22" +== Sc (-1) 0 (Ein "kc,ak,bcji->abij" [:: ("g.ov",1); ("U11old",0); ("U22old",0)]));
  when [:: TU2; T2gt 0; T2gt 1] ("U22" +== Ein "kc,ck,baji->abij" [:: ("g.ov",1); ("U11old",0); ("U22old",0)]);
  when [:: TU2; T2gt 0; T2gt 1] ("U22" +== Ein "kc,ci,bakj->abij" [:: ("g.ov",1); ("U11old",0); ("U22old",0)]);
  when [:: TU2; T2gt 0; T2gt 1] ("U22" +== Sc (-1) 0 (Ein "kc,cj,baki->abij" [:: ("g.ov",1); ("U11old",0); ("U22old",0)]));
  when [:: TU2; T2gt 0; T2gt 1] ("U22" +== Ein "kc,bk,acji->abij" [:: ("g.ov",1); ("U11old",0); ("U22old",0)]);
  when [:: TU2; T2gt 0; T2gt 1] ("U22" +== Sc (-1) 0 (Ein "kc,ak,bcji->abij" [:: ("g.ov",1); ("U11old",0); ("U22old",0)]));
  when [:: TU2; T2gt 0; T2gt 1] ("U22" +== Ein "kc,ck,baji->abij" [:: ("g.ov",1); ("U11old",0); ("U22old",0)]);
  when [:: TU2; T2gt 0; T2gt 1] ("U22" +== Ein "kc,bi,ackj->abij" [:: ("g.ov",1); ("U11old",0); ("U22old",0)]);
  when [:: TU2; T2gt 0; T2gt 1] ("U22" +== Sc (-1) 0 (Ein "kc,ai,bckj->abij" [:: ("g.ov",1); ("U11old",0); ("U22old",0)]));
  when [:: TU2; T2gt 0; T2gt 1] ("U22" +== Ein "kc,ci,bakj->abij" [:: ("g.ov",1); ("U11old",0); ("U22old",0)]);
  when [:: TU2; T2gt 0; T2gt 1] ("U22" +== Sc (-1) 0 (Ein "kc,bj,acki->abij" [:: ("g.ov",1); ("U11old",0); ("U22old",0)]));
  when [:: TU2; T2gt 0; T2gt 1] ("U22" +== Ein "kc,aj,bcki->abij" [:: ("g.ov",1); ("U11old",0); ("U22old",0)]);
  when [:: TU2; T2gt 0; T2gt 1] ("U22" +== Sc (-1) 0 (Ein "kc,cj,baki->abij" [:: ("g.ov",1); ("U11old",0); ("U22old",0)]));
  when [:: TU2; T2gt 0; T2gt 1] ("U22" +== Ein "kc,bk,acji->abij" [:: ("g.ov",1); ("U11old",0); ("U22old",0)]);
  when [:: TU2; T2gt 0; T2gt 1] ("U22" +== Sc (-1) 0 (Ein "kc,ak,bcji->abij" [:: ("g.ov",1); ("U11old",0); ("U22old",0)]));
  when [:: TU2; T2gt 0; T2gt 1] ("U22" +== Sc (-1) 0 (Ein "kc,bcji,ak->abij" [:: ("g.ov",1); ("U21old",0); ("U12old",0)]));
  when [:: TU2; T2gt 0; T2gt 1] ("U22" +== Ein "kc,acji,bk->abij" [:: ("g.ov",1); ("U21old",0); ("U12old",0)]);
  when [:: TU2; T2gt 0; T2gt 1] ("U22" +== Sc (-1) 0 (Ein "kc,baki,cj->abij" [:: ("g.ov",1); ("U21old",0); ("U12old",0)]));
  when [:: TU2; T2gt 0; T2gt 1] ("U22" +== Ein "kc,bcki,aj->abij" [:: ("g.ov",1); ("U21old",0); ("U12old",0)]);
  when [:: TU2; T2gt 0; T2gt 1] ("U22" +== Sc (-1) 0 (Ein "kc,acki,bj->abij" [:: ("g.ov",1); ("U21old",0); ("U12old",0)]));
  when [:: TU2; T2gt 0; T2gt 1] ("U22" +== Ein "kc,bakj,ci->abij" [:: ("g.ov",1); ("U21old",0); ("U12old",0)]);
  when [:: TU2; T2gt 0; T2gt 1] ("U22" +== Sc (-1) 0 (Ein "kc,bckj,ai->abij" [:: ("g.ov",1); ("U21old",0); ("U12old",0)]));
  when [:: TU2; T2gt 0; T2gt 1] ("U22" +== Ein "kc,ackj,bi->abij" [:: ("g.ov",1); ("U21old",0); ("U12old",0)]);
  when [:: TU2; T2gt 0; T2gt 1] ("U22" +== Sc (-1) 0 (Ein "kc,bcji,ak->abij" [:: ("g.ov",1); ("U21old",0); ("U12old",0)]));
  when [:: TU2; T2gt 0; T2gt 1] ("U22" +== Ein "kc,acji,bk->abij" [:: ("g.ov",1); ("U21old",0); ("U12old",0)]);
  when [:: TU2; T2gt 0; T2gt 1] ("U22" +== Sc (-1) 0 (Ein "kc,baki,cj->abij" [:: ("g.ov",1); ("U21old",0); ("U12old",0)]));
  when [:: TU2; T2gt 0; T2gt 1] ("U22" +== Ein "kc,bcki,aj->abij" [:: ("g.ov",1); ("U21old",0); ("U12old",0)]);
  when [:: TU2; T2gt 0; T2gt 1] ("U22" +== Sc (-1) 0 (Ein "kc,acki,bj->abij" [:: ("g.ov",1); ("U21old",0); ("U12old",0)]));
  when [:: TU2; T2gt 0; T2gt 1] ("U22" +== Ein "kc,bakj,ci->abij" [:: ("g.ov",1); ("U21old",0); ("U12old",0)]);
  when [:: TU2; T2gt 0; T2gt 1] ("U22" +== Sc (-1) 0 (Ein "kc,bckj,ai->abij" [:: ("g.ov",1); ("U21old",0); ("U12old",0)]));
  when [:: TU2; T2gt 0; T2gt 1] ("U22" +== Ein "kc,ackj,bi->abij" [:: ("g.ov",1); ("U21old",0); ("U12old",0)]);
  when [:: TU2; T2gt 0; T2gt 1] ("U22" +== Ein "kc,baji,ck->abij" [:: ("g.ov",1); ("U21old",0); ("U12old",0)]);
  when [:: TU2; T2gt 0; T2gt 1] ("U22" +== Sc (-1) 0 (Ein "kc,bcji,ak->abij" [:: ("g.ov",1); ("U21old",0); ("U12old",0)]));
  when [:: TU2; T2gt 0; T2gt 1] ("U22" +== Ein "kc,acji,bk->abij" [:: ("g.ov",1); ("U21old",0); ("U12old",0)]);
  when [:: TU2; T2gt 0; T2gt 1] ("U22" +== Sc (-1) 0 (Ein "kc,baki,cj->abij" [:: ("g.ov",1); ("U21old",0); ("U12old",0)]));
  when [:: TU2; T2gt 0; T2gt 1] ("U22" +== Ein "kc,bakj,ci->abij" [:: ("g.ov",1); ("U21old",0); ("U12old",0)]);
  when [:: TU2; T2gt 0; T2gt 1] ("U22" +== Sc (-1) 0 (Ein "klic,cj,bk,al->abij" [:: ("I.ooov",0); ("T1old",0); ("T1old",0); ("U12old",0)]));
  when [:: TU2; T2gt 0; T2gt 1] ("U22" +== Ein "klic,cj,ak,bl->abij" [:: ("I.ooov",0); ("T1old",0); ("T1old",0); ("U12old",0)]);
  when [:: TU2; T2gt 0; T2gt 1] ("U22" +== Sc (-1) 0 (Ein "klic,bk,al,cj->abij" [:: ("I.ooov",0); ("T1old",0); ("T1old",0); ("U12old",0)]));
  when [:: TU2; T2gt 0; T2gt 1] ("U22" +== Ein "kljc,ci,bk,al->abij" [:: ("I.ooov",0); ("T1old",0); ("T1old",0); ("U12old",0)]);
  when [:: TU2; T2gt 0; T2gt 1] ("U22" +== Sc (-1) 0 (Ein "kljc,ci,ak,bl->abij" [:: ("I.ooov",0); ("T1old",0); ("T1old",0); ("U12old",0)]));
  when [:: TU2; T2gt 0; T2gt 1] ("U22" +== Ein "kljc,bk,al,ci->abij" [:: ("I.ooov",0); ("T1old",0); ("T1old",0); ("U12old",0)]);
  when [:: TU2; T2gt 0; T2gt 1] ("U22" +== Ein "kbcd,di,cj,ak->abij" [:: ("I.ovvv",0); ("T1old",0); ("T1old",0); ("U12old",0)]);
  when [:: TU2; T2gt 0; T2gt 1] ("U22" +== Sc (-1) 0 (Ein "kacd,di,cj,bk->abij" [:: ("I.ovvv",0); ("T1old",0); ("T1old",0); ("U12old",0)]));
  when [:: TU2; T2gt 0; T2gt 1] ("U22" +== Ein "kbcd,di,ak,cj->abij" [:: ("I.ovvv",0); ("T1old",0); ("T1old",0); ("U12old",0)]);
  when [:: TU2; T2gt 0; T2gt 1] ("U22" +== Sc (-1) 0 (Ein "kacd,di,bk,cj->abij" [:: ("I.ovvv",0); ("T1old",0); ("T1old",0); ("U12old",0)]));
  when [:: TU2; T2gt 0; T2gt 1] ("U22" +== Sc (-1) 0 (Ein "kbcd,dj,ak,ci->abij" [:: ("I.ovvv",0); ("T1old",0); ("T1old",0); ("U12old",0)]));
  when [:: TU2; T2gt 0; T2gt 1] ("U22" +== Ein "kacd,dj,bk,ci->abij" [:: ("I.ovvv",0); ("T1old",0); ("T1old",0); ("U12old",0)]);
  when [:: TU2; T2gt 0; T2gt 1] ("U22" +== Mul ("S1old",0) (Ein "kc,ci,bakj->abij" [:: ("g.ov",1); ("T1old",0); ("U22old",0)]));
  when [:: TU2; T2gt 0; T2gt 1] ("U22" +== Sc (-1) 0 (Mul ("S1old",0) (Ein "kc,cj,baki->abij" [:: ("g.ov",1); ("T1old",0); ("U22old",0)])));
  when [:: TU2; T2gt 0; T2gt 1] ("U22" +== Mul ("S1old",0) (Ein "kc,bk,acji->abij" [:: ("g.ov",1); ("T1old",0); ("U22old",0)]));
  when [:: TU2; T2gt 0; T2gt 1] ("U22" +== Sc (-1) 0 (Mul ("S1old",0) (Ein "kc,ak,bcji->abij" [:: ("g.ov",1); ("T1old",0); ("U22old",0)])));
  when [:: TU2; T2gt 0; T2gt 1] ("U22" +== Sc (-1) 0 (Mul ("S1old",0) (Ein "kc,bcji,ak->abij" [:: ("g.ov",1); ("T2old",0); ("U12old",0)])));
  when [:: TU2; T2gt 0; T2gt 1] ("U22" +== Mul ("S1old",0) (Ein "kc,acji,bk->abij" [:: ("g.ov",1); ("T2old",0); ("U12old",0)]));
  when [:: TU2; T2gt 0; T2gt 1] ("U22" +== Sc (-1) 0 (Mul ("S1old",0) (Ein "kc,baki,cj->abij" [:: ("g.ov",1); ("T2old",0); ("U12old",0)])));
  when [:: TU2; T2gt 0; T2gt 1] ("U22" +== Mul ("S1old",0) (Ein "kc,bakj,ci->abij" [:: ("g.ov",1); ("T2old",0); ("U12old",0)]));
  when [:: TU2; T2gt 0; T2gt 1] ("U22" +== Sc (-1) 0 (Ein "klcd,bdji,aclk->abij" [:: ("I.oovv",0); ("U21old",0); ("U21old",0)]));
  when [:: TU2; T2gt 0; T2gt 1] ("U22" +== Ein "klcd,adji,bclk->abij" [:: ("I.oovv",0); ("U21old",0); ("U21old",0)]);
  when [:: TU2; T2gt 0; T2gt 1] ("U22" +== Sc (1) 1 (Ein "klcd,dcji,balk->abij" [:: ("I.oovv",0); ("U21old",0); ("U21old",0)]));
  when [:: TU2; T2gt 0; T2gt 1] ("U22" +== Sc (-1) 0 (Ein "klcd,baki,dclj->abij" [:: ("I.oovv",0); ("U21old",0); ("U21old",0)]));
  when [:: TU2; T2gt 0; T2gt 1] ("U22" +== Sc (2) 0 (Ein "klcd,bdki,aclj->abij" [:: ("I.oovv",0); ("U21old",0); ("U21old",0)]));
  when [:: TU2; T2gt 0; T2gt 1] ("U22" +== Sc (-2) 0 (Ein "klcd,adki,bclj->abij" [:: ("I.oovv",0); ("U21old",0); ("U21old",0)]));
  when [:: TU2; T2gt 0; T2gt 1] ("U22" +== Sc (-1) 0 (Ein "klcd,dcki,balj->abij" [:: ("I.oovv",0); ("U21old",0); ("U21old",0)]));
  when [:: TU2; T2gt 0; T2gt 1] ("U22" +== Sc (-1) 1 (Ein "klcd,di,cj,balk->abij" [:: ("I.oovv",0); ("T1old",0); ("T1old",0); ("U22old",0)]));
  when [:: TU2; T2gt 0; T2gt 1] ("U22" +== Ein "klcd,di,bk,aclj->abij" [:: ("I.oovv",0); ("T1old",0); ("T1old",0); ("U22old",0)]);
  when [:: TU2; T2gt 0; T2gt 1] ("U22" +== Sc (-1) 0 (Ein "klcd,di,ak,bclj->abij" [:: ("I.oovv",0); ("T1old",0); ("T1old",0); ("U22old",0)]));
  when [:: TU2; T2gt 0; T2gt 1] ("U22" +== Ein "klcd,di,ck,balj->abij" [:: ("I.oovv",0); ("T1old",0); ("T1old",0); ("U22old",0)]);
  when [:: TU2; T2gt 0; T2gt 1] ("U22" +== Sc (-1) 0 (Ein "klcd,dj,bk,acli->abij" [:: ("I.oovv",0); ("T1old",0); ("T1old",0); ("U22old",0)]));
  when [:: TU2; T2gt 0; T2gt 1] ("U22" +== Ein "klcd,dj,ak,bcli->abij" [:: ("I.oovv",0); ("T1old",0); ("T1old",0); ("U22old",0)]);
  when [:: TU2; T2gt 0; T2gt 1] ("U22" +== Sc (-1) 0 (Ein "klcd,dj,ck,bali->abij" [:: ("I.oovv",0); ("T1old",0); ("T1old",0); ("U22old",0)]));
  when [:: TU2; T2gt 0; T2gt 1] ("U22" +== Sc (-1) 1 (Ein "klcd,bk,al,dcji->abij" [:: ("I.oovv",0); ("T1old",0); ("T1old",0); ("U22old",0)]));
  when [:: TU2; T2gt 0; T2gt 1] ("U22" +== Ein "klcd,bk,dl,acji->abij" [:: ("I.oovv",0); ("T1old",0); ("T1old",0); ("U22old",0)]);
  when [:: TU2; T2gt 0; T2gt 1] ("U22" +== Sc (-1) 0 (Ein "klcd,ak,dl,bcji->abij" [:: ("I.oovv",0); ("T1old",0); ("T1old",0); ("U22old",0)]));
  when [:: TU2; T2gt 0; T2gt 1] ("U22" +== Sc (-1) 0 (Ein "klcd,di,bakj,cl->abij" [:: ("I.oovv",0); ("T1old",0); ("T2old",0); ("U12old",0)]));
  when [:: TU2; T2gt 0; T2gt 1] ("U22" +== Ein "klcd,di,bckj,al->abij" [:: ("I.oovv",0); ("T1old",0); ("T2old",0); ("U12old",0)]);
  when [:: TU2; T2gt 0; T2gt 1] ("U22" +== Sc (-1) 0 (Ein "klcd,di,ackj,bl->abij" [:: ("I.oovv",0); ("T1old",0); ("T2old",0); ("U12old",0)]));
  when [:: TU2; T2gt 0; T2gt 1] ("U22" +== Sc (-1) 1 (Ein "klcd,di,balk,cj->abij" [:: ("I.oovv",0); ("T1old",0); ("T2old",0); ("U12old",0)]));
  when [:: TU2; T2gt 0; T2gt 1] ("U22" +== Ein "klcd,dj,baki,cl->abij" [:: ("I.oovv",0); ("T1old",0); ("T2old",0); ("U12old",0)]);
  when [:: TU2; T2gt 0; T2gt 1] ("U22" +== Sc (-1) 0 (Ein "klcd,dj,bcki,al->abij" [:: ("I.oovv",0); ("T1old",0); ("T2old",0); ("U12old",0)]));
  when [:: TU2; T2gt 0; T2gt 1] ("U22" +== Ein "klcd,dj,acki,bl->abij" [:: ("I.oovv",0); ("T1old",0); ("T2old",0); ("U12old",0)]);
  when [:: TU2; T2gt 0; T2gt 1] ("U22" +== Sc (-1) 0 (Ein "klcd,bk,adji,cl->abij" [:: ("I.oovv",0); ("T1old",0); ("T2old",0); ("U12old",0)]));
  when [:: TU2; T2gt 0; T2gt 1] ("U22" +== Sc (-1) 1 (Ein "klcd,bk,dcji,al->abij" [:: ("I.oovv",0); ("T1old",0); ("T2old",0); ("U12old",0)]));
  when [:: TU2; T2gt 0; T2gt 1] ("U22" +== Ein "klcd,ak,bdji,cl->abij" [:: ("I.oovv",0); ("T1old",0); ("T2old",0); ("U12old",0)]);
  when [:: TU2; T2gt 0; T2gt 1] ("U22" +== Ein "klcd,dk,bcji,al->abij" [:: ("I.oovv",0); ("T1old",0); ("T2old",0); ("U12old",0)]);
  when [:: TU2; T2gt 0; T2gt 1] ("U22" +== Sc (1) 1 (Ein "klcd,ak,dcji,bl->abij" [:: ("I.oovv",0); ("T1old",0); ("T2old",0); ("U12old",0)]));
  when [:: TU2; T2gt 0; T2gt 1] ("U22" +== Sc (-1) 0 (Ein "klcd,dk,acji,bl->abij" [:: ("I.oovv",0); ("T1old",0); ("T2old",0); ("U12old",0)]));
  when [:: TU2; T2gt 0; T2gt 1] ("U22" +== Ein "klcd,bk,adli,cj->abij" [:: ("I.oovv",0); ("T1old",0); ("T2old",0); ("U12old",0)]);
  when [:: TU2; T2gt 0; T2gt 1] ("U22" +== Sc (-1) 0 (Ein "klcd,ak,bdli,cj->abij" [:: ("I.oovv",0); ("T1old",0); ("T2old",0); ("U12old",0)]));
  when [:: TU2; T2gt 0; T2gt 1] ("U22" +== Ein "klcd,dk,bali,cj->abij" [:: ("I.oovv",0); ("T1old",0); ("T2old",0); ("U12old",0)]);
  when [:: TU2; T2gt 0; T2gt 1] ("U22" +== Sc (1) 1 (Ein "klcd,dj,balk,ci->abij" [:: ("I.oovv",0); ("T1old",0); ("T2old",0); ("U12old",0)]));
  when [:: TU2; T2gt 0; T2gt 1] ("U22" +== Sc (-1) 0 (Ein "klcd,bk,adlj,ci->abij" [:: ("I.oovv",0); ("T1old",0); ("T2old",0); ("U12old",0)]));
  when [:: TU2; T2gt 0; T2gt 1] ("U22" +== Ein "klcd,ak,bdlj,ci->abij" [:: ("I.oovv",0); ("T1old",0); ("T2old",0); ("U12old",0)]);
  when [:: TU2; T2gt 0; T2gt 1] ("U22" +== Sc (-1) 0 (Ein "klcd,dk,balj,ci->abij" [:: ("I.oovv",0); ("T1old",0); ("T2old",0); ("U12old",0)]));
  when [:: TU2; T2gt 0; T2gt 1] ("U22" +== Sc (-2) 0 (Ein "klic,cj,bk,al->abij" [:: ("I.ooov",0); ("T1old",0); ("U11old",0); ("U11old",0)]));
  when [:: TU2; T2gt 0; T2gt 1] ("U22" +== Sc (-2) 0 (Ein "klic,bk,cj,al->abij" [:: ("I.ooov",0); ("T1old",0); ("U11old",0); ("U11old",0)]));
  when [:: TU2; T2gt 0; T2gt 1] ("U22" +== Sc (2) 0 (Ein "klic,ak,cj,bl->abij" [:: ("I.ooov",0); ("T1old",0); ("U11old",0); ("U11old",0)]));
  when [:: TU2; T2gt 0; T2gt 1] ("U22" +== Sc (2) 0 (Ein "kljc,ci,bk,al->abij" [:: ("I.ooov",0); ("T1old",0); ("U11old",0); ("U11old",0)]));
  when [:: TU2; T2gt 0; T2gt 1] ("U22" +== Sc (2) 0 (Ein "kljc,bk,ci,al->abij" [:: ("I.ooov",0); ("T1old",0); ("U11old",0); ("U11old",0)]));
  when [:: TU2; T2gt 0; T2gt 1] ("U22" +== Sc (-2) 0 (Ein "kljc,ak,ci,bl->abij" [:: ("I.ooov",0); ("T1old",0); ("U11old",0); ("U11old",0)]));
  when [:: TU2; T2gt 0; T2gt 1] ("U22" +== Sc (2) 0 (Ein "kbcd,di,cj,ak->abij" [:: ("I.ovvv",0); ("T1old",0); ("U11old",0); ("U11old",0)]));
  when [:: TU2; T2gt 0; T2gt 1] ("U22" +== Sc (-2) 0 (Ein "kacd,di,cj,bk->abij" [:: ("I.ovvv",0); ("T1old",0); ("U11old",0); ("U11old",0)]));
  when [:: TU2; T2gt 0; T2gt 1] ("U22" +== Sc (-2) 0 (Ein "kbcd,dj,ci,ak->abij" [:: ("I.ovvv",0); ("T1old",0); ("U11old",0); ("U11old",0)]));
  when [:: TU2; T2gt 0; T2gt 1] ("U22" +== Sc (2) 0 (Ein "kacd,dj,ci,bk->abij" [:: ("I.ovvv",0); ("T1old",0); ("U11old",0); ("U11old",0)]));
  when [:: TU2; T2gt 0; T2gt 1] ("U22" +== Sc (2) 0 (Ein "kbcd,ak,di,cj->abij" [:: ("I.ovvv",0); ("T1old",0); ("U11old",0); ("U11old",0)]));
  when [:: TU2; T2gt 0; T2gt 1] ("U22" +== Sc (-2) 0 (Ein "kacd,bk,di,cj->abij" [:: ("I.ovvv",0); ("T1old",0); ("U11old",0); ("U11old",0)]));
  when [:: TU2; T2gt 0; T2gt 1] ("U22" +== Ein "kc,ci,bk,aj->abij" [:: ("g.ov",1); ("T1old",0); ("U11old",0); ("U12old",0)]);
  when [:: TU2; T2gt 0; T2gt 1] ("U22" +== Sc (-1) 0 (Ein "kc,ci,ak,bj->abij" [:: ("g.ov",1); ("T1old",0); ("U11old",0); ("U12old",0)]));
  when [:: TU2; T2gt 0; T2gt 1] ("U22" +== Ein "kc,bk,ci,aj->abij" [:: ("g.ov",1); ("T1old",0); ("U11old",0); ("U12old",0)]);
  when [:: TU2; T2gt 0; T2gt 1] ("U22" +== Sc (-1) 0 (Ein "kc,ak,ci,bj->abij" [:: ("g.ov",1); ("T1old",0); ("U11old",0); ("U12old",0)]));
  when [:: TU2; T2gt 0; T2gt 1] ("U22" +== Sc (-1) 0 (Ein "kc,cj,bk,ai->abij" [:: ("g.ov",1); ("T1old",0); ("U11old",0); ("U12old",0)]));
  when [:: TU2; T2gt 0; T2gt 1] ("U22" +== Ein "kc,cj,ak,bi->abij" [:: ("g.ov",1); ("T1old",0); ("U11old",0); ("U12old",0)]);
  when [:: TU2; T2gt 0; T2gt 1] ("U22" +== Sc (-1) 0 (Ein "kc,bk,cj,ai->abij" [:: ("g.ov",1); ("T1old",0); ("U11old",0); ("U12old",0)]));
  when [:: TU2; T2gt 0; T2gt 1] ("U22" +== Ein "kc,ak,cj,bi->abij" [:: ("g.ov",1); ("T1old",0); ("U11old",0); ("U12old",0)]);
  when [:: TU2; T2gt 0; T2gt 1] ("U22" +== Ein "kc,ci,bk,aj->abij" [:: ("g.ov",1); ("T1old",0); ("U11old",0); ("U12old",0)]);
  when [:: TU2; T2gt 0; T2gt 1] ("U22" +== Sc (-1) 0 (Ein "kc,ci,ak,bj->abij" [:: ("g.ov",1); ("T1old",0); ("U11old",0); ("U12old",0)]));
  when [:: TU2; T2gt 0; T2gt 1] ("U22" +== Ein "kc,bk,ci,aj->abij" [:: ("g.ov",1); ("T1old",0); ("U11old",0); ("U12old",0)]);
  when [:: TU2; T2gt 0; T2gt 1] ("U22" +== Sc (-1) 0 (Ein "kc,ak,ci,bj->abij" [:: ("g.ov",1); ("T1old",0); ("U11old",0); ("U12old",0)]));
  when [:: TU2; T2gt 0; T2gt 1] ("U22" +== Sc (-1) 0 (Ein "kc,cj,bk,ai->abij" [:: ("g.ov",1); ("T1old",0); ("U11old",0); ("U12old",0)]));
  when [:: TU2; T2gt 0; T2gt 1] ("U22" +== Ein "kc,cj,ak,bi->abij" [:: ("g.ov",1); ("T1old",0); ("U11old",0); ("U12old",0)]);
  when [:: TU2; T2gt 0; T2gt 1] ("U22" +== Sc (-1) 0 (Ein "kc,bk,cj,ai->abij" [:: ("g.ov",1); ("T1old",0); ("U11old",0); ("U12old",0)]));
  when [:: TU2; T2gt 0; T2gt 1] ("U22" +== Ein "kc,ak,cj,bi->abij" [:: ("g.ov",1); ("T1old",0); ("U11old",0); ("U12old",0)]);
  when [:: TU2; T2gt 0; T2gt 1] ("U22" +== Sc (-1) 0 (Ein "kc,ci,bj,ak->abij" [:: ("g.ov",1); ("T1old",0); ("U11old",0); ("U12old",0)]));
  when [:: TU2; T2gt 0; T2gt 1] ("U22" +== Ein "kc,ci,aj,bk->abij" [:: ("g.ov",1); ("T1old",0); ("U11old",0); ("U12old",0)]);
  when [:: TU2; T2gt 0; T2gt 1] ("U22" +== Ein "kc,cj,bi,ak->abij" [:: ("g.ov",1); ("T1old",0); ("U11old",0); ("U12old",0)]);
  when [:: TU2; T2gt 0; T2gt 1] ("U22" +== Sc (-1) 0 (Ein "kc,cj,ai,bk->abij" [:: ("g.ov",1); ("T1old",0); ("U11old",0); ("U12old",0)]));
  when [:: TU2; T2gt 0; T2gt 1] ("U22" +== Sc (-1) 0 (Ein "kc,bk,ai,cj->abij" [:: ("g.ov",1); ("T1old",0); ("U11old",0); ("U12old",0)]));
  when [:: TU2; T2gt 0; T2gt 1] ("U22" +== Ein "kc,ak,bi,cj->abij" [:: ("g.ov",1); ("T1old",0); ("U11old",0); ("U12old",0)]);
  when [:: TU2; T2gt 0; T2gt 1] ("U22" +== Ein "kc,bk,aj,ci->abij" [:: ("g.ov",1); ("T1old",0); ("U11old",0); ("U12old",0)]);
  when [:: TU2; T2gt 0; T2gt 1] ("U22" +== Sc (-1) 0 (Ein "kc,ak,bj,ci->abij" [:: ("g.ov",1); ("T1old",0); ("U11old",0); ("U12old",0)]));
  when [:: TU2; T2gt 0; T2gt 1] ("U22" +== Sc (2) 0 (Mul ("S1old",0) (Ein "kc,ci,bakj->abij" [:: ("g.ov",1); ("U11old",0); ("U21old",0)])));
  when [:: TU2; T2gt 0; T2gt 1] ("U22" +== Sc (-2) 0 (Mul ("S1old",0) (Ein "kc,cj,baki->abij" [:: ("g.ov",1); ("U11old",0); ("U21old",0)])));
  when [:: TU2; T2gt 0; T2gt 1] ("U22" +== Sc (2) 0 (Mul ("S1old",0) (Ein "kc,bk,acji->abij" [:: ("g.ov",1); ("U11old",0); ("U21old",0)])));
  when [:: TU2; T2gt 0; T2gt 1] ("U22" +== Sc (-2) 0 (Mul ("S1old",0) (Ein "kc,ak,bcji->abij" [:: ("g.ov",1); ("U11old",0); ("U21old",0)])));
  when [:: TU2; T2gt 0; T2gt 1] ("U22" +== Sc (-1) 0 (Ein "klcd,di,cj,balk->abij" [:: ("I.oovv",0); ("T1old",0); ("U11old",0); ("U21old",0)]));
  when [:: TU2; T2gt 0; T2gt 1] ("U22" +== Sc (2) 0 (Ein "klcd,di,bk,aclj->abij" [:: ("I.oovv",0); ("T1old",0); ("U11old",0); ("U21old",0)]));
  when [:: TU2; T2gt 0; T2gt 1] ("U22" +== Sc (-2) 0 (Ein "klcd,di,ak,bclj->abij" [:: ("I.oovv",0); ("T1old",0); ("U11old",0); ("U21old",0)]));
  when [:: TU2; T2gt 0; T2gt 1] ("U22" +== Sc (2) 0 (Ein "klcd,di,ck,balj->abij" [:: ("I.oovv",0); ("T1old",0); ("U11old",0); ("U21old",0)]));
  when [:: TU2; T2gt 0; T2gt 1] ("U22" +== Ein "klcd,dj,ci,balk->abij" [:: ("I.oovv",0); ("T1old",0); ("U11old",0); ("U21old",0)]);
  when [:: TU2; T2gt 0; T2gt 1] ("U22" +== Sc (2) 0 (Ein "klcd,bk,di,aclj->abij" [:: ("I.oovv",0); ("T1old",0); ("U11old",0); ("U21old",0)]));
  when [:: TU2; T2gt 0; T2gt 1] ("U22" +== Sc (-2) 0 (Ein "klcd,ak,di,bclj->abij" [:: ("I.oovv",0); ("T1old",0); ("U11old",0); ("U21old",0)]));
  when [:: TU2; T2gt 0; T2gt 1] ("U22" +== Sc (-2) 0 (Ein "klcd,dk,ci,balj->abij" [:: ("I.oovv",0); ("T1old",0); ("U11old",0); ("U21old",0)]));
  when [:: TU2; T2gt 0; T2gt 1] ("U22" +== Sc (-2) 0 (Ein "klcd,dj,bk,acli->abij" [:: ("I.oovv",0); ("T1old",0); ("U11old",0); ("U21old",0)]));
  when [:: TU2; T2gt 0; T2gt 1] ("U22" +== Sc (2) 0 (Ein "klcd,dj,ak,bcli->abij" [:: ("I.oovv",0); ("T1old",0); ("U11old",0); ("U21old",0)]));
  when [:: TU2; T2gt 0; T2gt 1] ("U22" +== Sc (-2) 0 (Ein "klcd,dj,ck,bali->abij" [:: ("I.oovv",0); ("T1old",0); ("U11old",0); ("U21old",0)]));
  when [:: TU2; T2gt 0; T2gt 1] ("U22" +== Sc (-2) 0 (Ein "klcd,bk,dj,acli->abij" [:: ("I.oovv",0); ("T1old",0); ("U11old",0); ("U21old",0)]));
  when [:: TU2; T2gt 0; T2gt 1] ("U22" +== Sc (2) 0 (Ein "klcd,ak,dj,bcli->abij" [:: ("I.oovv",0); ("T1old",0); ("U11old",0); ("U21old",0)]));
  when [:: TU2; T2gt 0; T2gt 1] ("U22" +== Sc (2) 0 (Ein "klcd,dk,cj,bali->abij" [:: ("I.oovv",0); ("T1old",0); ("U11old",0); ("U21old",0)]));
  when [:: TU2; T2gt 0; T2gt 1] ("U22" +== Sc (-1) 0 (Ein "klcd,bk,al,dcji->abij" [:: ("I.oovv",0); ("T1old",0); ("U11old",0); ("U21old",0)]));
  when [:: TU2; T2gt 0; T2gt 1] ("U22" +== Sc (2) 0 (Ein "klcd,bk,dl,acji->abij" [:: ("I.oovv",0); ("T1old",0); ("U11old",0); ("U21old",0)]));
  when [:: TU2; T2gt 0; T2gt 1] ("U22" +== Ein "klcd,ak,bl,dcji->abij" [:: ("I.oovv",0); ("T1old",0); ("U11old",0); ("U21old",0)]);
  when [:: TU2; T2gt 0; T2gt 1] ("U22" +== Sc (-2) 0 (Ein "klcd,dk,bl,acji->abij" [:: ("I.oovv",0); ("T1old",0); ("U11old",0); ("U21old",0)]));
  when [:: TU2; T2gt 0; T2gt 1] ("U22" +== Sc (-2) 0 (Ein "klcd,ak,dl,bcji->abij" [:: ("I.oovv",0); ("T1old",0); ("U11old",0); ("U21old",0)]));
  when [:: TU2; T2gt 0; T2gt 1] ("U22" +== Sc (2) 0 (Ein "klcd,dk,al,bcji->abij" [:: ("I.oovv",0); ("T1old",0); ("U11old",0); ("U21old",0)]));
  when [:: TU2; T2gt 0; T2gt 1] ("U22" +== Sc (2) 0 (Ein "klcd,bdji,ak,cl->abij" [:: ("I.oovv",0); ("T2old",0); ("U11old",0); ("U11old",0)]));
  when [:: TU2; T2gt 0; T2gt 1] ("U22" +== Sc (-2) 0 (Ein "klcd,adji,bk,cl->abij" [:: ("I.oovv",0); ("T2old",0); ("U11old",0); ("U11old",0)]));
  when [:: TU2; T2gt 0; T2gt 1] ("U22" +== Sc (-1) 0 (Ein "klcd,dcji,bk,al->abij" [:: ("I.oovv",0); ("T2old",0); ("U11old",0); ("U11old",0)]));
  when [:: TU2; T2gt 0; T2gt 1] ("U22" +== Sc (2) 0 (Ein "klcd,baki,dj,cl->abij" [:: ("I.oovv",0); ("T2old",0); ("U11old",0); ("U11old",0)]));
  when [:: TU2; T2gt 0; T2gt 1] ("U22" +== Sc (2) 0 (Ein "klcd,bdki,cj,al->abij" [:: ("I.oovv",0); ("T2old",0); ("U11old",0); ("U11old",0)]));
  when [:: TU2; T2gt 0; T2gt 1] ("U22" +== Sc (-2) 0 (Ein "klcd,adki,cj,bl->abij" [:: ("I.oovv",0); ("T2old",0); ("U11old",0); ("U11old",0)]));
  when [:: TU2; T2gt 0; T2gt 1] ("U22" +== Sc (-2) 0 (Ein "klcd,bakj,di,cl->abij" [:: ("I.oovv",0); ("T2old",0); ("U11old",0); ("U11old",0)]));
  when [:: TU2; T2gt 0; T2gt 1] ("U22" +== Sc (-2) 0 (Ein "klcd,bdkj,ci,al->abij" [:: ("I.oovv",0); ("T2old",0); ("U11old",0); ("U11old",0)]));
  when [:: TU2; T2gt 0; T2gt 1] ("U22" +== Sc (2) 0 (Ein "klcd,adkj,ci,bl->abij" [:: ("I.oovv",0); ("T2old",0); ("U11old",0); ("U11old",0)]));
  when [:: TU2; T2gt 0; T2gt 1] ("U22" +== Sc (-1) 0 (Ein "klcd,balk,di,cj->abij" [:: ("I.oovv",0); ("T2old",0); ("U11old",0); ("U11old",0)]));
  when [:: TU2; T2gt 0; T2gt 1] ("U22" +== Sc (2) 0 (Ein "kc,bi,cj,ak->abij" [:: ("g.ov",1); ("U11old",0); ("U11old",0); ("U11old",0)]));
  when [:: TU2; T2gt 0; T2gt 1] ("U22" +== Sc (-2) 0 (Ein "kc,ci,bj,ak->abij" [:: ("g.ov",1); ("U11old",0); ("U11old",0); ("U11old",0)]));
  when [:: TU2; T2gt 0; T2gt 1] ("U22" +== Sc (-2) 0 (Ein "kc,ai,cj,bk->abij" [:: ("g.ov",1); ("U11old",0); ("U11old",0); ("U11old",0)]));
  when [:: TU2; T2gt 0; T2gt 1] ("U22" +== Sc (2) 0 (Ein "kc,ci,aj,bk->abij" [:: ("g.ov",1); ("U11old",0); ("U11old",0); ("U11old",0)]))].

(** /repo/openms/mqed/qedcc_equations.py lines 1217-1376, [single_qedccsd_U1n].
    The results are "U11" and "U12", stored in lines 1297 and 1375 as the entry
    of the only mode.  A product by [w] broadcasts an array of one entry. *)
Definition ref_single_U1n : prog := [::
  when [:: T2gt 0] ("U11old" :== At ("U1nold[0]",1));
  when [:: T2gt 0; T2gt 1] ("U12old" :== At ("U1nold[1]",2));
  when [:: T2gt 0; TU2] ("U21old" :== At ("U2nold[0]",1));
  when [:: T2gt 0; TU2; T2gt 1] ("U22old" :== At ("U2nold[1]",2));
  when [:: T2gt 0; T1gt 0] ("S1old" :== At ("Snold[0]",1));
  when [:: T2gt 0; T1gt 1] ("S2old" :== At ("Snold[1]",2));
  when [:: T2gt 0] ("U11" :== Zero "vo");
  when [:: T2gt 0] ("U11" +== Ein "ai->ai" [:: ("g.vo",1)]);
  when [:: T2gt 0] ("U11" +== Sc (-1) 0 (Ein "ji,aj->ai" [:: ("g.oo",1); ("T1old",0)]));
  when [:: T2gt 0] ("U11" +== Ein "ab,bi->ai" [:: ("g.vv",1); ("T1old",0)]);
  when [:: T2gt 0] ("U11" +== Sc (-1) 0 (Ein "jb,abji->ai" [:: ("g.ov",1); ("T2old",0)]));
  when [:: T2gt 0] ("U11" +== Sc (-1) 0 (Ein "ji,aj->ai" [:: ("F.oo",0); ("U11old",0)]));
  when [:: T2gt 0] ("U11" +== Ein "ab,bi->ai" [:: ("F.vv",0); ("U11old",0)]);
  when [:: T2gt 0] ("U11" +== Mul ("w",1) (Ein "ai->ai" [:: ("U11old",0)]));
  when [:: T2gt 0] ("U11" +== Sc (-1) 0 (Ein "jaib,bj->ai" [:: ("I.ovov",0); ("U11old",0)]));
  when [:: T2gt 0; T1gt 1] ("U11" +== Mul ("S2old",0) (Ein "ai->ai" [:: ("g.vo",1)]));
  when [:: T2gt 0; T1gt 1] ("U11" +== Sc (-1) 0 (Mul ("S2old",0) (Ein "ji,aj->ai" [:: ("g.oo",1); ("T1old",0)])));
  when [:: T2gt 0; T1gt 1] ("U11" +== Mul ("S2old",0) (Ein "ab,bi->ai" [:: ("g.vv",1); ("T1old",0)]));
  when [:: T2gt 0; T1gt 1] ("U11" +== Sc (-1) 0 (Mul ("S2old",0) (Ein "jb,abji->ai" [:: ("g.ov",1); ("T2old",0)])));
  when [:: T2gt 0; T1gt 1] ("U11" +== Sc (-1) 0 (Mul ("S2old",0) (Ein "jb,bi,aj->ai" [:: ("g.ov",1); ("T1old",0); ("T1old",0)])));
  when [:: T2gt 0] ("U11" +== Sc (-1) 0 (Ein "jb,bi,aj->ai" [:: ("g.ov",1); ("T1old",0); ("T1old",0)]));
  when [:: T2gt 0] ("U11" +== Sc (-1) 0 (Ein "jb,bi,aj->ai" [:: ("F.ov",0); ("T1old",0); ("U11old",0)]));
  when [:: T2gt 0] ("U11" +== Sc (-1) 0 (Ein "jb,aj,bi->ai" [:: ("F.ov",0); ("T1old",0); ("U11old",0)]));
  when [:: T2gt 0] ("U11" +== Sc (-1) 0 (Mul ("S1old",0) (Ein "ji,aj->ai" [:: ("g.oo",1); ("U11old",0)])));
  when [:: T2gt 0] ("U11" +== Mul ("S1old",0) (Ein "ab,bi->ai" [:: ("g.vv",1); ("U11old",0)]));
  when [:: T2gt 0] ("U11" +== Sc (-1) 0 (Ein "jkib,aj,bk->ai" [:: ("I.ooov",0); ("T1old",0); ("U11old",0)]));
  when [:: T2gt 0] ("U11" +== Ein "jkib,bj,ak->ai" [:: ("I.ooov",0); ("T1old",0); ("U11old",0)]);
  when [:: T2gt 0] ("U11" +== Ein "jabc,ci,bj->ai" [:: ("I.ovvv",0); ("T1old",0); ("U11old",0)]);
  when [:: T2gt 0] ("U11" +== Sc (-1) 0 (Ein "jabc,cj,bi->ai" [:: ("I.ovvv",0); ("T1old",0); ("U11old",0)]));
  when [:: T2gt 0; T2gt 1] ("U11" +== Sc (-1) 0 (Ein "ji,aj->ai" [:: ("g.oo",1); ("U12old",0)]));
  when [:: T2gt 0; T2gt 1] ("U11" +== Ein "ab,bi->ai" [:: ("g.vv",1); ("U12old",0)]);
  when [:: T2gt 0; T2gt 1] ("U11" +== Sc (-1) 0 (Ein "jb,bi,aj->ai" [:: ("g.ov",1); ("T1old",0); ("U12old",0)]));
  when [:: T2gt 0; T2gt 1] ("U11" +== Sc (-1) 0 (Ein "jb,aj,bi->ai" [:: ("g.ov",1); ("T1old",0); ("U12old",0)]));
  when [:: T2gt 0; T2gt 1] ("U11" +== Ein "jb,bj,ai->ai" [:: ("g.ov",1); ("T1old",0); ("U12old",0)]);
  when [:: T2gt 0; TU2] ("U11" +== Sc (-1) 0 (Ein "jb,abji->ai" [:: ("F.ov",0); ("U21old",0)]));
  when [:: T2gt 0; TU2] ("U11" +== Sc (1) 1 (Ein "jkib,abkj->ai" [:: ("I.ooov",0); ("U21old",0)]));
  when [:: T2gt 0; TU2] ("U11" +== Sc (-1) 1 (Ein "jabc,cbji->ai" [:: ("I.ovvv",0); ("U21old",0)]));
  when [:: T2gt 0; TU2] ("U11" +== Sc (-1) 0 (Mul ("S1old",0) (Ein "jb,abji->ai" [:: ("g.ov",1); ("U21old",0)])));
  when [:: T2gt 0; TU2] ("U11" +== Sc (-1) 1 (Ein "jkbc,ci,abkj->ai" [:: ("I.oovv",0); ("T1old",0); ("U21old",0)]));
  when [:: T2gt 0; TU2] ("U11" +== Sc (-1) 1 (Ein "jkbc,aj,cbki->ai" [:: ("I.oovv",0); ("T1old",0); ("U21old",0)]));
  when [:: T2gt 0; TU2] ("U11" +== Ein "jkbc,cj,abki->ai" [:: ("I.oovv",0); ("T1old",0); ("U21old",0)]);
  when [:: T2gt 0; TU2; T2gt 1] ("U11" +== Sc (-1) 0 (Ein "jb,abji->ai" [:: ("g.ov",1); ("U22old",0)]));
  when [:: T2gt 0] ("U11" +== Ein "jkbc,acji,bk->ai" [:: ("I.oovv",0); ("T2old",0); ("U11old",0)]);
  when [:: T2gt 0] ("U11" +== Sc (1) 1 (Ein "jkbc,cbji,ak->ai" [:: ("I.oovv",0); ("T2old",0); ("U11old",0)]));
  when [:: T2gt 0] ("U11" +== Sc (1) 1 (Ein "jkbc,ackj,bi->ai" [:: ("I.oovv",0); ("T2old",0); ("U11old",0)]));
  when [:: T2gt 0] ("U11" +== Ein "jb,ai,bj->ai" [:: ("g.ov",1); ("U11old",0); ("U11old",0)]);
  when [:: T2gt 0] ("U11" +== Sc (-2) 0 (Ein "jb,bi,aj->ai" [:: ("g.ov",1); ("U11old",0); ("U11old",0)]));
  when [:: T2gt 0] ("U11" +== Sc (-1) 0 (Mul ("S1old",0) (Ein "jb,bi,aj->ai" [:: ("g.ov",1); ("T1old",0); ("U11old",0)])));
  when [:: T2gt 0] ("U11" +== Sc (-1) 0 (Mul ("S1old",0) (Ein "jb,aj,bi->ai" [:: ("g.ov",1); ("T1old",0); ("U11old",0)])));
  when [:: T2gt 0] ("U11" +== Ein "jkbc,ci,aj,bk->ai" [:: ("I.oovv",0); ("T1old",0); ("T1old",0); ("U11old",0)]);
  when [:: T2gt 0] ("U11" +== Sc (-1) 0 (Ein "jkbc,ci,bj,ak->ai" [:: ("I.oovv",0); ("T1old",0); ("T1old",0); ("U11old",0)]));
  when [:: T2gt 0] ("U11" +== Sc (-1) 0 (Ein "jkbc,aj,ck,bi->ai" [:: ("I.oovv",0); ("T1old",0); ("T1old",0); ("U11old",0)]));
  when [:: T2gt 0; T2gt 1] ("U12" :== Zero "vo");
  when [:: T2gt 0; T2gt 1] ("U12" +== Sc (-1) 0 (Ein "ji,aj->ai" [:: ("F.oo",0); ("U12old",0)]));
  when [:: T2gt 0; T2gt 1] ("U12" +== Ein "ab,bi->ai" [:: ("F.vv",0); ("U12old",0)]);
  when [:: T2gt 0; T2gt 1] ("U12" +== Mul ("w",1) (Ein "ai->ai" [:: ("U12old",0)]));
  when [:: T2gt 0; T2gt 1] ("U12" +== Mul ("w",1) (Ein "ai->ai" [:: ("U12old",0)]));
  when [:: T2gt 0; T2gt 1] ("U12" +== Sc (-1) 0 (Ein "ji,aj->ai" [:: ("g.oo",1); ("U11old",0)]));
  when [:: T2gt 0; T2gt 1] ("U12" +== Sc (-1) 0 (Ein "ji,aj->ai" [:: ("g.oo",1); ("U11old",0)]));
  when [:: T2gt 0; T2gt 1] ("U12" +== Ein "ab,bi->ai" [:: ("g.vv",1); ("U11old",0)]);
  when [:: T2gt 0; T2gt 1] ("U12" +== Ein "ab,bi->ai" [:: ("g.vv",1); ("U11old",0)]);
  when [:: T2gt 0; T2gt 1] ("U12" +== Sc (-1) 0 (Ein "jaib,bj->ai" [:: ("I.ovov",0); ("U12old",0)]));
  when [:: T2gt 0; T2gt 1] ("U12" +== Sc (-1) 0 (Ein "jb,bi,aj->ai" [:: ("F.ov",0); ("T1old",0); ("U12old",0)]));
  when [:: T2gt 0; T2gt 1] ("U12" +== Sc (-1) 0 (Ein "jb,aj,bi->ai" [:: ("F.ov",0); ("T1old",0); ("U12old",0)]));
  when [:: T2gt 0; T2gt 1] ("U12" +== Sc (-1) 0 (Mul ("S1old",0) (Ein "ji,aj->ai" [:: ("g.oo",1); ("U12old",0)])));
  when [:: T2gt 0; T2gt 1] ("U12" +== Sc (-1) 0 (Ein "jb,bi,aj->ai" [:: ("g.ov",1); ("T1old",0); ("U11old",0)]));
  when [:: T2gt 0; T2gt 1] ("U12" +== Sc (-1) 0 (Ein "jb,aj,bi->ai" [:: ("g.ov",1); ("T1old",0); ("U11old",0)]));
  when [:: T2gt 0; T2gt 1] ("U12" +== Sc (-1) 0 (Ein "jb,bi,aj->ai" [:: ("g.ov",1); ("T1old",0); ("U11old",0)]));
  when [:: T2gt 0; T2gt 1] ("U12" +== Sc (-1) 0 (Ein "jb,aj,bi->ai" [:: ("g.ov",1); ("T1old",0); ("U11old",0)]));
  when [:: T2gt 0; T2gt 1] ("U12" +== Mul ("S1old",0) (Ein "ab,bi->ai" [:: ("g.vv",1); ("U12old",0)]));
  when [:: T2gt 0; T2gt 1] ("U12" +== Sc (-1) 0 (Ein "jkib,aj,bk->ai" [:: ("I.ooov",0); ("T1old",0); ("U12old",0)]));
  when [:: T2gt 0; T2gt 1] ("U12" +== Ein "jkib,bj,ak->ai" [:: ("I.ooov",0); ("T1old",0); ("U12old",0)]);
  when [:: T2gt 0; T2gt 1] ("U12" +== Ein "jabc,ci,bj->ai" [:: ("I.ovvv",0); ("T1old",0); ("U12old",0)]);
  when [:: T2gt 0; T2gt 1] ("U12" +== Sc (-1) 0 (Ein "jabc,cj,bi->ai" [:: ("I.ovvv",0); ("T1old",0); ("U12old",0)]));
  when [:: T2gt 0; T2gt 1] ("U12" +== Sc (1) 1 (Ein "jkbc,cbji,ak->ai" [:: ("I.oovv",0); ("T2old",0); ("U12old",0)]));
  when [:: T2gt 0; T2gt 1] ("U12" +== Sc (1) 1 (Ein "jkbc,ackj,bi->ai" [:: ("I.oovv",0); ("T2old",0); ("U12old",0)]));
  when [:: T2gt 0; T2gt 1] ("U12" +== Sc (-2) 0 (Ein "jb,bi,aj->ai" [:: ("F.ov",0); ("U11old",0); ("U11old",0)]));
  when [:: T2gt 0; T2gt 1] ("U12" +== Sc (-2) 0 (Ein "jkib,aj,bk->ai" [:: ("I.ooov",0); ("U11old",0); ("U11old",0)]));
  when [:: T2gt 0; T2gt 1] ("U12" +== Sc (2) 0 (Ein "jabc,ci,bj->ai" [:: ("I.ovvv",0); ("U11old",0); ("U11old",0)]));
  when [:: T2gt 0; T2gt 1] ("U12" +== Sc (-1) 0 (Ein "jb,bi,aj->ai" [:: ("g.ov",1); ("U11old",0); ("U12old",0)]));
  when [:: T2gt 0; T2gt 1] ("U12" +== Sc (-1) 0 (Ein "jb,aj,bi->ai" [:: ("g.ov",1); ("U11old",0); ("U12old",0)]));
  when [:: T2gt 0; T2gt 1] ("U12" +== Ein "jb,bj,ai->ai" [:: ("g.ov",1); ("U11old",0); ("U12old",0)]);
  when [:: T2gt 0; T2gt 1] ("U12" +== Sc (-1) 0 (Ein "jb,bi,aj->ai" [:: ("g.ov",1); ("U11old",0); ("U12old",0)]));
  when [:: T2gt 0; T2gt 1] ("U12" +== Sc (-1) 0 (Ein "jb,aj,bi->ai" [:: ("g.ov",1); ("U11old",0); ("U12old",0)]));
  when [:: T2gt 0; T2gt 1] ("U12" +== Ein "jb,bj,ai->ai" [:: ("g.ov",1); ("U11old",0); ("U12old",0)]);
  when [:: T2gt 0; T2gt 1] ("U12" +== Ein "jb,ai,bj->ai" [:: ("g.ov",1); ("U11old",0); ("U12old",0)]);
  when [:: T2gt 0; T2gt 1] ("U12" +== Sc (-1) 0 (Ein "jb,bi,aj->ai" [:: ("g.ov",1); ("U11old",0); ("U12old",0)]));
  when [:: T2gt 0; T2gt 1] ("U12" +== Sc (-1) 0 (Ein "jb,aj,bi->ai" [:: ("g.ov",1); ("U11old",0); ("U12old",0)]));
  when [:: T2gt 0; T2gt 1] ("U12" +== Sc (-1) 0 (Mul ("S1old",0) (Ein "jb,bi,aj->ai" [:: ("g.ov",1); ("T1old",0); ("U12old",0)])));
  when [:: T2gt 0; T2gt 1] ("U12" +== Sc (-1) 0 (Mul ("S1old",0) (Ein "jb,aj,bi->ai" [:: ("g.ov",1); ("T1old",0); ("U12old",0)])));
  when [:: T2gt 0; T2gt 1; T1gt 1] ("U12" +== Sc (-1) 0 (Mul ("S2old",0) (Ein "ji,aj->ai" [:: ("g.oo",1); ("U11old",0)])));
  when [:: T2gt 0; T2gt 1; T1gt 1] ("U12" +== Sc (-1) 0 (Mul ("S2old",0) (Ein "ji,aj->ai" [:: ("g.oo",1); ("U11old",0)])));
  when [:: T2gt 0; T2gt 1; T1gt 1] ("U12" +== Mul ("S2old",0) (Ein "ab,bi->ai" [:: ("g.vv",1); ("U11old",0)]));
  when [:: T2gt 0; T2gt 1; T1gt 1] ("U12" +== Mul ("S2old",0) (Ein "ab,bi->ai" [:: ("g.vv",1); ("U11old",0)]));
  when [:: T2gt 0; T2gt 1; T1gt 1] ("U12" +== Sc (-1) 0 (Mul ("S2old",0) (Ein "jb,bi,aj->ai" [:: ("g.ov",1); ("T1old",0); ("U11old",0)])));
  when [:: T2gt 0; T2gt 1; T1gt 1] ("U12" +== Sc (-1) 0 (Mul ("S2old",0) (Ein "jb,aj,bi->ai" [:: ("g.ov",1); ("T1old",0); ("U11old",0)])));
  when [:: T2gt 0; T2gt 1; T1gt 1] ("U12" +== Sc (-1) 0 (Mul ("S2old",0) (Ein "jb,bi,aj->ai" [:: ("g.ov",1); ("T1old",0); ("U11old",0)])));
  when [:: T2gt 0; T2gt 1; T1gt 1] ("U12" +== Sc (-1) 0 (Mul ("S2old",0) (Ein "jb,aj,bi->ai" [:: ("g.ov",1); ("T1old",0); ("U11old",0)])));
  when [:: T2gt 0; T2gt 1; TU2] ("U12" +== Sc (-1) 0 (Ein "jb,abji->ai" [:: ("g.ov",1); ("U21old",0)]));
  when [:: T2gt 0; T2gt 1; TU2] ("U12" +== Sc (-1) 0 (Ein "jb,abji->ai" [:: ("g.ov",1); ("U21old",0)]));
  when [:: T2gt 0; T2gt 1; TU2] ("U12" +== Sc (-1) 0 (Ein "jkbc,ci,abkj->ai" [:: ("I.oovv",0); ("U11old",0); ("U21old",0)]));
  when [:: T2gt 0; T2gt 1; TU2] ("U12" +== Sc (-1) 0 (Ein "jkbc,aj,cbki->ai" [:: ("I.oovv",0); ("U11old",0); ("U21old",0)]));
  when [:: T2gt 0; T2gt 1; TU2] ("U12" +== Sc (2) 0 (Ein "jkbc,cj,abki->ai" [:: ("I.oovv",0); ("U11old",0); ("U21old",0)]));
  when [:: T2gt 0; T2gt 1; TU2] ("U12" +== Sc (-1) 0 (Ein "jb,abji->ai" [:: ("F.ov",0); ("U22old",0)]));
  when [:: T2gt 0; T2gt 1; TU2] ("U12" +== Sc (1) 1 (Ein "jkib,abkj->ai" [:: ("I.ooov",0); ("U22old",0)]));
  when [:: T2gt 0; T2gt 1; TU2] ("U12" +== Sc (-1) 1 (Ein "jabc,cbji->ai" [:: ("I.ovvv",0); ("U22old",0)]));
  when [:: T2gt 0; T2gt 1; TU2] ("U12" +== Sc (-1) 0 (Mul ("S1old",0) (Ein "jb,abji->ai" [:: ("g.ov",1); ("U22old",0)])));
  when [:: T2gt 0; T2gt 1; TU2] ("U12" +== Sc (-1) 1 (Ein "jkbc,ci,abkj->ai" [:: ("I.oovv",0); ("T1old",0); ("U22old",0)]));
  when [:: T2gt 0; T2gt 1; TU2] ("U12" +== Sc (-1) 1 (Ein "jkbc,aj,cbki->ai" [:: ("I.oovv",0); ("T1old",0); ("U22old",0)]));
  when [:: T2gt 0; T2gt 1; TU2] ("U12" +== Ein "jkbc,cj,abki->ai" [:: ("I.oovv",0); ("T1old",0); ("U22old",0)]);
  when [:: T2gt 0; T2gt 1; TU2; T1gt 1] ("U12" +== Sc (-1) 0 (Mul ("S2old",0) (Ein "jb,abji->ai" [:: ("g.ov",1); ("U21old",0)])));
  when [:: T2gt 0; T2gt 1; TU2; T1gt 1] ("U12" +== Sc (-1) 0 (Mul ("S2old",0) (Ein "jb,abji->ai" [:: ("g.ov",1); ("U21old",0)])));
  when [:: T2gt 0; T2gt 1] ("U12" +== Ein "jkbc,acji,bk->ai" [:: ("I.oovv",0); ("T2old",0); ("U12old",0)]);
  when [:: T2gt 0; T2gt 1] ("U12" +== Ein "jkbc,ci,aj,bk->ai" [:: ("I.oovv",0); ("T1old",0); ("T1old",0); ("U12old",0)]);
  when [:: T2gt 0; T2gt 1] ("U12" +== Sc (-1) 0 (Ein "jkbc,ci,bj,ak->ai" [:: ("I.oovv",0); ("T1old",0); ("T1old",0); ("U12old",0)]));
  when [:: T2gt 0; T2gt 1] ("U12" +== Sc (-1) 0 (Ein "jkbc,aj,ck,bi->ai" [:: ("I.oovv",0); ("T1old",0); ("T1old",0); ("U12old",0)]));
  when [:: T2gt 0; T2gt 1] ("U12" +== Sc (-2) 0 (Mul ("S1old",0) (Ein "jb,bi,aj->ai" [:: ("g.ov",1); ("U11old",0); ("U11old",0)])));
  when [:: T2gt 0; T2gt 1] ("U12" +== Sc (2) 0 (Ein "jkbc,ci,aj,bk->ai" [:: ("I.oovv",0); ("T1old",0); ("U11old",0); ("U11old",0)]));
  when [:: T2gt 0; T2gt 1] ("U12" +== Sc (2) 0 (Ein "jkbc,aj,ci,bk->ai" [:: ("I.oovv",0); ("T1old",0); ("U11old",0); ("U11old",0)]));
  when [:: T2gt 0; T2gt 1] ("U12" +== Sc (2) 0 (Ein "jkbc,cj,bi,ak->ai" [:: ("I.oovv",0); ("T1old",0); ("U11old",0); ("U11old",0)]))].

(** /repo/openms/mqed/qedcc_equations.py lines 1379-1990, [single_qedccsd_U2n].
    The results are "U21" and "U22", stored in lines 1626 and 1988 as the entry
    of the only mode.  A product by [w] broadcasts an array of one entry. *)
Definition ref_single_U2n : prog := [::
  when [:: TU2; T2gt 0] ("U11old" :== At ("U1nold[0]",1));
  when [:: TU2; T2gt 0] ("U21old" :== At ("U2nold[0]",1));
  when [:: TU2; T2gt 0; T2gt 1] ("U12old" :== At ("U1nold[1]",2));
  when [:: TU2; T2gt 0; T2gt 1] ("U22old" :== At ("U2nold[1]",2));
  when [:: TU2; T2gt 0; T1gt 0] ("S1old" :== At ("Snold[0]",1));
  when [:: TU2; T2gt 0; T1gt 1] ("S2old" :== At ("Snold[1]",2));
  when [:: TU2; T2gt 0] ("U21" :== Zero "vvoo");
  when [:: TU2; T2gt 0] ("U22" :== Zero "vvoo");
  when [:: TU2; T2gt 0] ("U21" +== Ein "ki,bakj->abij" [:: ("g.oo",1); ("T2old",0)]);
  when [:: TU2; T2gt 0] ("U21" +== Sc (-1) 0 (Ein "kj,baki->abij" [:: ("g.oo",1); ("T2old",0)]));
  when [:: TU2; T2gt 0] ("U21" +== Sc (-1) 0 (Ein "bc,acji->abij" [:: ("g.vv",1); ("T2old",0)]));
  when [:: TU2; T2gt 0] ("U21" +== Ein "ac,bcji->abij" [:: ("g.vv",1); ("T2old",0)]);
  when [:: TU2; T2gt 0] ("U21" +== Ein "ki,bakj->abij" [:: ("F.oo",0); ("U21old",0)]);
  when [:: TU2; T2gt 0] ("U21" +== Sc (-1) 0 (Ein "kj,baki->abij" [:: ("F.oo",0); ("U21old",0)]));
  when [:: TU2; T2gt 0] ("U21" +== Sc (-1) 0 (Ein "bc,acji->abij" [:: ("F.vv",0); ("U21old",0)]));
  when [:: TU2; T2gt 0] ("U21" +== Ein "ac,bcji->abij" [:: ("F.vv",0); ("U21old",0)]);
  when [:: TU2; T2gt 0] ("U21" +== Ein "kbji,ak->abij" [:: ("I.ovoo",0); ("U11old",0)]);
  when [:: TU2; T2gt 0] ("U21" +== Sc (-1) 0 (Ein "kaji,bk->abij" [:: ("I.ovoo",0); ("U11old",0)]));
  when [:: TU2; T2gt 0] ("U21" +== Sc (-1) 0 (Ein "baic,cj->abij" [:: ("I.vvov",0); ("U11old",0)]));
  when [:: TU2; T2gt 0] ("U21" +== Ein "bajc,ci->abij" [:: ("I.vvov",0); ("U11old",0)]);
  when [:: TU2; T2gt 0] ("U21" +== Mul ("w",1) (Ein "baji->abij" [:: ("U21old",0)]));
  when [:: TU2; T2gt 0] ("U21" +== Sc (-1) 1 (Ein "klji,balk->abij" [:: ("I.oooo",0); ("U21old",0)]));
  when [:: TU2; T2gt 0] ("U21" +== Sc (-1) 0 (Ein "kbic,ackj->abij" [:: ("I.ovov",0); ("U21old",0)]));
  when [:: TU2; T2gt 0] ("U21" +== Ein "kaic,bckj->abij" [:: ("I.ovov",0); ("U21old",0)]);
  when [:: TU2; T2gt 0] ("U21" +== Ein "kbjc,acki->abij" [:: ("I.ovov",0); ("U21old",0)]);
  when [:: TU2; T2gt 0] ("U21" +== Sc (-1) 0 (Ein "kajc,bcki->abij" [:: ("I.ovov",0); ("U21old",0)]));
  when [:: TU2; T2gt 0] ("U21" +== Sc (-1) 1 (Ein "bacd,dcji->abij" [:: ("I.vvvv",0); ("U21old",0)]));
  when [:: TU2; T2gt 0; T2gt 1] ("U21" +== Ein "ki,bakj->abij" [:: ("g.oo",1); ("U22old",0)]);
  when [:: TU2; T2gt 0; T2gt 1] ("U21" +== Sc (-1) 0 (Ein "kj,baki->abij" [:: ("g.oo",1); ("U22old",0)]));
  when [:: TU2; T2gt 0; T2gt 1] ("U21" +== Sc (-1) 0 (Ein "bc,acji->abij" [:: ("g.vv",1); ("U22old",0)]));
  when [:: TU2; T2gt 0; T2gt 1] ("U21" +== Ein "ac,bcji->abij" [:: ("g.vv",1); ("U22old",0)]);
  when [:: TU2; T2gt 0; T2gt 1] ("U21" +== Ein "kc,ci,bakj->abij" [:: ("g.ov",1); ("T1old",0); ("U22old",0)]);
  when [:: TU2; T2gt 0; T2gt 1] ("U21" +== Sc (-1) 0 (Ein "kc,cj,baki->abij" [:: ("g.ov",1); ("T1old",0); ("U22old",0)]));
  when [:: TU2; T2gt 0; T2gt 1] ("U21" +== Ein "kc,bk,acji->abij" [:: ("g.ov",1); ("T1old",0); ("U22old",0)]);
  when [:: TU2; T2gt 0; T2gt 1] ("U21" +== Sc (-1) 0 (Ein "kc,ak,bcji->abij" [:: ("g.ov",1); ("T1old",0); ("U22old",0)]));
  when [:: TU2; T2gt 0; T2gt 1] ("U21" +== Ein "kc,ck,baji->abij" [:: ("g.ov",1); ("T1old",0); ("U22old",0)]);
  when [:: TU2; T2gt 0; T1gt 1] ("U21" +== Mul ("S2old",0) (Ein "ki,bakj->abij" [:: ("g.oo",1); ("T2old",0)]));
  when [:: TU2; T2gt 0; T1gt 1] ("U21" +== Sc (-1) 0 (Mul ("S2old",0) (Ein "kj,baki->abij" [:: ("g.oo",1); ("T2old",0)])));
  when [:: TU2; T2gt 0; T1gt 1] ("U21" +== Sc (-1) 0 (Mul ("S2old",0) (Ein "bc,acji->abij" [:: ("g.vv",1); ("T2old",0)])));
  when [:: TU2; T2gt 0; T1gt 1] ("U21" +== Mul ("S2old",0) (Ein "ac,bcji->abij" [:: ("g.vv",1); ("T2old",0)]));
  when [:: TU2; T2gt 0; T1gt 1] ("U21" +== Mul ("S2old",0) (Ein "kc,ci,bakj->abij" [:: ("g.ov",1); ("T1old",0); ("T2old",0)]));
  when [:: TU2; T2gt 0; T1gt 1] ("U21" +== Sc (-1) 0 (Mul ("S2old",0) (Ein "kc,cj,baki->abij" [:: ("g.ov",1); ("T1old",0); ("T2old",0)])));
  when [:: TU2; T2gt 0; T1gt 1] ("U21" +== Mul ("S2old",0) (Ein "kc,bk,acji->abij" [:: ("g.ov",1); ("T1old",0); ("T2old",0)]));
  when [:: TU2; T2gt 0; T1gt 1] ("U21" +== Sc (-1) 0 (Mul ("S2old",0) (Ein "kc,ak,bcji->abij" [:: ("g.ov",1); ("T1old",0); ("T2old",0)])));
  when [:: TU2; T2gt 0] ("U21" +== Sc (-1) 1 (Ein "klcd,bdji,aclk->abij" [:: ("I.oovv",0); ("T2old",0); ("U21old",0)]));
  when [:: TU2; T2gt 0] ("U21" +== Ein "kc,ci,bakj->abij" [:: ("g.ov",1); ("T1old",0); ("T2old",0)]);
  when [:: TU2; T2gt 0] ("U21" +== Sc (-1) 0 (Ein "kc,cj,baki->abij" [:: ("g.ov",1); ("T1old",0); ("T2old",0)]));
  when [:: TU2; T2gt 0] ("U21" +== Ein "kc,bk,acji->abij" [:: ("g.ov",1); ("T1old",0); ("T2old",0)]);
  when [:: TU2; T2gt 0] ("U21" +== Sc (-1) 0 (Ein "kc,ak,bcji->abij" [:: ("g.ov",1); ("T1old",0); ("T2old",0)]));
  when [:: TU2; T2gt 0] ("U21" +== Ein "kc,ci,bakj->abij" [:: ("F.ov",0); ("T1old",0); ("U21old",0)]);
  when [:: TU2; T2gt 0] ("U21" +== Sc (-1) 0 (Ein "kc,cj,baki->abij" [:: ("F.ov",0); ("T1old",0); ("U21old",0)]));
  when [:: TU2; T2gt 0] ("U21" +== Ein "kc,bk,acji->abij" [:: ("F.ov",0); ("T1old",0); ("U21old",0)]);
  when [:: TU2; T2gt 0] ("U21" +== Sc (-1) 0 (Ein "kc,ak,bcji->abij" [:: ("F.ov",0); ("T1old",0); ("U21old",0)]));
  when [:: TU2; T2gt 0] ("U21" +== Sc (-1) 0 (Ein "kc,bcji,ak->abij" [:: ("F.ov",0); ("T2old",0); ("U11old",0)]));
  when [:: TU2; T2gt 0] ("U21" +== Ein "kc,acji,bk->abij" [:: ("F.ov",0); ("T2old",0); ("U11old",0)]);
  when [:: TU2; T2gt 0] ("U21" +== Sc (-1) 0 (Ein "kc,baki,cj->abij" [:: ("F.ov",0); ("T2old",0); ("U11old",0)]));
  when [:: TU2; T2gt 0] ("U21" +== Ein "kc,bakj,ci->abij" [:: ("F.ov",0); ("T2old",0); ("U11old",0)]);
  when [:: TU2; T2gt 0] ("U21" +== Ein "klji,bk,al->abij" [:: ("I.oooo",0); ("T1old",0); ("U11old",0)]);
  when [:: TU2; T2gt 0] ("U21" +== Sc (-1) 0 (Ein "klji,ak,bl->abij" [:: ("I.oooo",0); ("T1old",0); ("U11old",0)]));
  when [:: TU2; T2gt 0] ("U21" +== Sc (-1) 0 (Ein "kbic,cj,ak->abij" [:: ("I.ovov",0); ("T1old",0); ("U11old",0)]));
  when [:: TU2; T2gt 0] ("U21" +== Ein "kaic,cj,bk->abij" [:: ("I.ovov",0); ("T1old",0); ("U11old",0)]);
  when [:: TU2; T2gt 0] ("U21" +== Sc (-1) 0 (Ein "kbic,ak,cj->abij" [:: ("I.ovov",0); ("T1old",0); ("U11old",0)]));
  when [:: TU2; T2gt 0] ("U21" +== Ein "kaic,bk,cj->abij" [:: ("I.ovov",0); ("T1old",0); ("U11old",0)]);
  when [:: TU2; T2gt 0] ("U21" +== Ein "kbjc,ci,ak->abij" [:: ("I.ovov",0); ("T1old",0); ("U11old",0)]);
  when [:: TU2; T2gt 0] ("U21" +== Sc (-1) 0 (Ein "kajc,ci,bk->abij" [:: ("I.ovov",0); ("T1old",0); ("U11old",0)]));
  when [:: TU2; T2gt 0] ("U21" +== Ein "kbjc,ak,ci->abij" [:: ("I.ovov",0); ("T1old",0); ("U11old",0)]);
  when [:: TU2; T2gt 0] ("U21" +== Sc (-1) 0 (Ein "kajc,bk,ci->abij" [:: ("I.ovov",0); ("T1old",0); ("U11old",0)]));
  when [:: TU2; T2gt 0] ("U21" +== Ein "bacd,di,cj->abij" [:: ("I.vvvv",0); ("T1old",0); ("U11old",0)]);
  when [:: TU2; T2gt 0] ("U21" +== Sc (-1) 0 (Ein "bacd,dj,ci->abij" [:: ("I.vvvv",0); ("T1old",0); ("U11old",0)]));
  when [:: TU2; T2gt 0; T2gt 1] ("U21" +== Sc (-1) 0 (Ein "bi,aj->abij" [:: ("g.vo",1); ("U12old",0)]));
  when [:: TU2; T2gt 0; T2gt 1] ("U21" +== Ein "ai,bj->abij" [:: ("g.vo",1); ("U12old",0)]);
  when [:: TU2; T2gt 0; T2gt 1] ("U21" +== Ein "bj,ai->abij" [:: ("g.vo",1); ("U12old",0)]);
  when [:: TU2; T2gt 0; T2gt 1] ("U21" +== Sc (-1) 0 (Ein "aj,bi->abij" [:: ("g.vo",1); ("U12old",0)]));
  when [:: TU2; T2gt 0; T2gt 1] ("U21" +== Ein "ki,bk,aj->abij" [:: ("g.oo",1); ("T1old",0); ("U12old",0)]);
  when [:: TU2; T2gt 0; T2gt 1] ("U21" +== Sc (-1) 0 (Ein "ki,ak,bj->abij" [:: ("g.oo",1); ("T1old",0); ("U12old",0)]));
  when [:: TU2; T2gt 0; T2gt 1] ("U21" +== Sc (-1) 0 (Ein "kj,bk,ai->abij" [:: ("g.oo",1); ("T1old",0); ("U12old",0)]));
  when [:: TU2; T2gt 0; T2gt 1] ("U21" +== Ein "kj,ak,bi->abij" [:: ("g.oo",1); ("T1old",0); ("U12old",0)]);
  when [:: TU2; T2gt 0; T2gt 1] ("U21" +== Sc (-1) 0 (Ein "bc,ci,aj->abij" [:: ("g.vv",1); ("T1old",0); ("U12old",0)]));
  when [:: TU2; T2gt 0; T2gt 1] ("U21" +== Ein "ac,ci,bj->abij" [:: ("g.vv",1); ("T1old",0); ("U12old",0)]);
  when [:: TU2; T2gt 0; T2gt 1] ("U21" +== Ein "bc,cj,ai->abij" [:: ("g.vv",1); ("T1old",0); ("U12old",0)]);
  when [:: TU2; T2gt 0; T2gt 1] ("U21" +== Sc (-1) 0 (Ein "ac,cj,bi->abij" [:: ("g.vv",1); ("T1old",0); ("U12old",0)]));
  when [:: TU2; T2gt 0; T2gt 1] ("U21" +== Sc (-1) 0 (Ein "kc,bcji,ak->abij" [:: ("g.ov",1); ("T2old",0); ("U12old",0)]));
  when [:: TU2; T2gt 0; T2gt 1] ("U21" +== Ein "kc,acji,bk->abij" [:: ("g.ov",1); ("T2old",0); ("U12old",0)]);
  when [:: TU2; T2gt 0; T2gt 1] ("U21" +== Sc (-1) 0 (Ein "kc,baki,cj->abij" [:: ("g.ov",1); ("T2old",0); ("U12old",0)]));
  when [:: TU2; T2gt 0; T2gt 1] ("U21" +== Ein "kc,bcki,aj->abij" [:: ("g.ov",1); ("T2old",0); ("U12old",0)]);
  when [:: TU2; T2gt 0; T2gt 1] ("U21" +== Sc (-1) 0 (Ein "kc,acki,bj->abij" [:: ("g.ov",1); ("T2old",0); ("U12old",0)]));
  when [:: TU2; T2gt 0; T2gt 1] ("U21" +== Ein "kc,bakj,ci->abij" [:: ("g.ov",1); ("T2old",0); ("U12old",0)]);
  when [:: TU2; T2gt 0; T2gt 1] ("U21" +== Sc (-1) 0 (Ein "kc,bckj,ai->abij" [:: ("g.ov",1); ("T2old",0); ("U12old",0)]));
  when [:: TU2; T2gt 0; T2gt 1] ("U21" +== Ein "kc,ackj,bi->abij" [:: ("g.ov",1); ("T2old",0); ("U12old",0)]);
  when [:: TU2; T2gt 0; T2gt 1] ("U21" +== Ein "kc,ci,bk,aj->abij" [:: ("g.ov",1); ("T1old",0); ("T1old",0); ("U12old",0)]);
  when [:: TU2; T2gt 0; T2gt 1] ("U21" +== Sc (-1) 0 (Ein "kc,ci,ak,bj->abij" [:: ("g.ov",1); ("T1old",0); ("T1old",0); ("U12old",0)]));
  when [:: TU2; T2gt 0; T2gt 1] ("U21" +== Sc (-1) 0 (Ein "kc,cj,bk,ai->abij" [:: ("g.ov",1); ("T1old",0); ("T1old",0); ("U12old",0)]));
  when [:: TU2; T2gt 0; T2gt 1] ("U21" +== Ein "kc,cj,ak,bi->abij" [:: ("g.ov",1); ("T1old",0); ("T1old",0); ("U12old",0)]);
  when [:: TU2; T2gt 0] ("U21" +== Mul ("S1old",0) (Ein "ki,bakj->abij" [:: ("g.oo",1); ("U21old",0)]));
  when [:: TU2; T2gt 0] ("U21" +== Sc (-1) 0 (Mul ("S1old",0) (Ein "kj,baki->abij" [:: ("g.oo",1); ("U21old",0)])));
  when [:: TU2; T2gt 0] ("U21" +== Sc (-1) 0 (Mul ("S1old",0) (Ein "bc,acji->abij" [:: ("g.vv",1); ("U21old",0)])));
  when [:: TU2; T2gt 0] ("U21" +== Mul ("S1old",0) (Ein "ac,bcji->abij" [:: ("g.vv",1); ("U21old",0)]));
  when [:: TU2; T2gt 0] ("U21" +== Sc (1) 1 (Ein "klic,cj,balk->abij" [:: ("I.ooov",0); ("T1old",0); ("U21old",0)]));
  when [:: TU2; T2gt 0] ("U21" +== Sc (-1) 0 (Ein "klic,bk,aclj->abij" [:: ("I.ooov",0); ("T1old",0); ("U21old",0)]));
  when [:: TU2; T2gt 0] ("U21" +== Ein "klic,ak,bclj->abij" [:: ("I.ooov",0); ("T1old",0); ("U21old",0)]);
  when [:: TU2; T2gt 0] ("U21" +== Sc (-1) 0 (Ein "klic,ck,balj->abij" [:: ("I.ooov",0); ("T1old",0); ("U21old",0)]));
  when [:: TU2; T2gt 0] ("U21" +== Sc (-1) 1 (Ein "kljc,ci,balk->abij" [:: ("I.ooov",0); ("T1old",0); ("U21old",0)]));
  when [:: TU2; T2gt 0] ("U21" +== Ein "kljc,bk,acli->abij" [:: ("I.ooov",0); ("T1old",0); ("U21old",0)]);
  when [:: TU2; T2gt 0] ("U21" +== Sc (-1) 0 (Ein "kljc,ak,bcli->abij" [:: ("I.ooov",0); ("T1old",0); ("U21old",0)]));
  when [:: TU2; T2gt 0] ("U21" +== Ein "kljc,ck,bali->abij" [:: ("I.ooov",0); ("T1old",0); ("U21old",0)]);
  when [:: TU2; T2gt 0] ("U21" +== Ein "klic,bakj,cl->abij" [:: ("I.ooov",0); ("T2old",0); ("U11old",0)]);
  when [:: TU2; T2gt 0] ("U21" +== Sc (-1) 0 (Ein "klic,bckj,al->abij" [:: ("I.ooov",0); ("T2old",0); ("U11old",0)]));
  when [:: TU2; T2gt 0] ("U21" +== Ein "klic,ackj,bl->abij" [:: ("I.ooov",0); ("T2old",0); ("U11old",0)]);
  when [:: TU2; T2gt 0] ("U21" +== Sc (1) 1 (Ein "klic,balk,cj->abij" [:: ("I.ooov",0); ("T2old",0); ("U11old",0)]));
  when [:: TU2; T2gt 0] ("U21" +== Sc (-1) 0 (Ein "kljc,baki,cl->abij" [:: ("I.ooov",0); ("T2old",0); ("U11old",0)]));
  when [:: TU2; T2gt 0] ("U21" +== Ein "kljc,bcki,al->abij" [:: ("I.ooov",0); ("T2old",0); ("U11old",0)]);
  when [:: TU2; T2gt 0] ("U21" +== Sc (-1) 0 (Ein "kljc,acki,bl->abij" [:: ("I.ooov",0); ("T2old",0); ("U11old",0)]));
  when [:: TU2; T2gt 0] ("U21" +== Sc (-1) 1 (Ein "kljc,balk,ci->abij" [:: ("I.ooov",0); ("T2old",0); ("U11old",0)]));
  when [:: TU2; T2gt 0] ("U21" +== Ein "kbcd,di,ackj->abij" [:: ("I.ovvv",0); ("T1old",0); ("U21old",0)]);
  when [:: TU2; T2gt 0] ("U21" +== Sc (-1) 0 (Ein "kacd,di,bckj->abij" [:: ("I.ovvv",0); ("T1old",0); ("U21old",0)]));
  when [:: TU2; T2gt 0] ("U21" +== Sc (-1) 0 (Ein "kbcd,dj,acki->abij" [:: ("I.ovvv",0); ("T1old",0); ("U21old",0)]));
  when [:: TU2; T2gt 0] ("U21" +== Ein "kacd,dj,bcki->abij" [:: ("I.ovvv",0); ("T1old",0); ("U21old",0)]);
  when [:: TU2; T2gt 0] ("U21" +== Sc (-1) 1 (Ein "kbcd,ak,dcji->abij" [:: ("I.ovvv",0); ("T1old",0); ("U21old",0)]));
  when [:: TU2; T2gt 0] ("U21" +== Ein "kbcd,dk,acji->abij" [:: ("I.ovvv",0); ("T1old",0); ("U21old",0)]);
  when [:: TU2; T2gt 0] ("U21" +== Sc (1) 1 (Ein "kacd,bk,dcji->abij" [:: ("I.ovvv",0); ("T1old",0); ("U21old",0)]));
  when [:: TU2; T2gt 0] ("U21" +== Sc (-1) 0 (Ein "kacd,dk,bcji->abij" [:: ("I.ovvv",0); ("T1old",0); ("U21old",0)]));
  when [:: TU2; T2gt 0] ("U21" +== Sc (-1) 0 (Ein "kbcd,adji,ck->abij" [:: ("I.ovvv",0); ("T2old",0); ("U11old",0)]));
  when [:: TU2; T2gt 0] ("U21" +== Sc (-1) 1 (Ein "kbcd,dcji,ak->abij" [:: ("I.ovvv",0); ("T2old",0); ("U11old",0)]));
  when [:: TU2; T2gt 0] ("U21" +== Ein "kacd,bdji,ck->abij" [:: ("I.ovvv",0); ("T2old",0); ("U11old",0)]);
  when [:: TU2; T2gt 0] ("U21" +== Sc (1) 1 (Ein "kacd,dcji,bk->abij" [:: ("I.ovvv",0); ("T2old",0); ("U11old",0)]));
  when [:: TU2; T2gt 0] ("U21" +== Ein "kbcd,adki,cj->abij" [:: ("I.ovvv",0); ("T2old",0); ("U11old",0)]);
  when [:: TU2; T2gt 0] ("U21" +== Sc (-1) 0 (Ein "kacd,bdki,cj->abij" [:: ("I.ovvv",0); ("T2old",0); ("U11old",0)]));
  when [:: TU2; T2gt 0] ("U21" +== Sc (-1) 0 (Ein "kbcd,adkj,ci->abij" [:: ("I.ovvv",0); ("T2old",0); ("U11old",0)]));
  when [:: TU2; T2gt 0] ("U21" +== Ein "kacd,bdkj,ci->abij" [:: ("I.ovvv",0); ("T2old",0); ("U11old",0)]);
  when [:: TU2; T2gt 0] ("U21" +== Sc (1) 1 (Ein "klcd,adji,bclk->abij" [:: ("I.oovv",0); ("T2old",0); ("U21old",0)]));
  when [:: TU2; T2gt 0] ("U21" +== Sc (1) 2 (Ein "klcd,dcji,balk->abij" [:: ("I.oovv",0); ("T2old",0); ("U21old",0)]));
  when [:: TU2; T2gt 0] ("U21" +== Sc (-1) 1 (Ein "klcd,baki,dclj->abij" [:: ("I.oovv",0); ("T2old",0); ("U21old",0)]));
  when [:: TU2; T2gt 0] ("U21" +== Ein "klcd,bdki,aclj->abij" [:: ("I.oovv",0); ("T2old",0); ("U21old",0)]);
  when [:: TU2; T2gt 0] ("U21" +== Sc (-1) 0 (Ein "klcd,adki,bclj->abij" [:: ("I.oovv",0); ("T2old",0); ("U21old",0)]));
  when [:: TU2; T2gt 0] ("U21" +== Sc (-1) 1 (Ein "klcd,dcki,balj->abij" [:: ("I.oovv",0); ("T2old",0); ("U21old",0)]));
  when [:: TU2; T2gt 0] ("U21" +== Sc (1) 1 (Ein "klcd,bakj,dcli->abij" [:: ("I.oovv",0); ("T2old",0); ("U21old",0)]));
  when [:: TU2; T2gt 0] ("U21" +== Sc (-1) 0 (Ein "klcd,bdkj,acli->abij" [:: ("I.oovv",0); ("T2old",0); ("U21old",0)]));
  when [:: TU2; T2gt 0] ("U21" +== Ein "klcd,adkj,bcli->abij" [:: ("I.oovv",0); ("T2old",0); ("U21old",0)]);
  when [:: TU2; T2gt 0] ("U21" +== Sc (1) 1 (Ein "klcd,dckj,bali->abij" [:: ("I.oovv",0); ("T2old",0); ("U21old",0)]));
  when [:: TU2; T2gt 0] ("U21" +== Sc (1) 2 (Ein "klcd,balk,dcji->abij" [:: ("I.oovv",0); ("T2old",0); ("U21old",0)]));
  when [:: TU2; T2gt 0] ("U21" +== Sc (-1) 1 (Ein "klcd,bdlk,acji->abij" [:: ("I.oovv",0); ("T2old",0); ("U21old",0)]));
  when [:: TU2; T2gt 0] ("U21" +== Sc (1) 1 (Ein "klcd,adlk,bcji->abij" [:: ("I.oovv",0); ("T2old",0); ("U21old",0)]));
  when [:: TU2; T2gt 0] ("U21" +== Sc (-1) 0 (Ein "ki,bj,ak->abij" [:: ("g.oo",1); ("U11old",0); ("U11old",0)]));
  when [:: TU2; T2gt 0] ("U21" +== Ein "ki,aj,bk->abij" [:: ("g.oo",1); ("U11old",0); ("U11old",0)]);
  when [:: TU2; T2gt 0] ("U21" +== Ein "kj,bi,ak->abij" [:: ("g.oo",1); ("U11old",0); ("U11old",0)]);
  when [:: TU2; T2gt 0] ("U21" +== Sc (-1) 0 (Ein "kj,ai,bk->abij" [:: ("g.oo",1); ("U11old",0); ("U11old",0)]));
  when [:: TU2; T2gt 0] ("U21" +== Ein "bc,ai,cj->abij" [:: ("g.vv",1); ("U11old",0); ("U11old",0)]);
  when [:: TU2; T2gt 0] ("U21" +== Sc (-1) 0 (Ein "bc,ci,aj->abij" [:: ("g.vv",1); ("U11old",0); ("U11old",0)]));
  when [:: TU2; T2gt 0] ("U21" +== Sc (-1) 0 (Ein "ac,bi,cj->abij" [:: ("g.vv",1); ("U11old",0); ("U11old",0)]));
  when [:: TU2; T2gt 0] ("U21" +== Ein "ac,ci,bj->abij" [:: ("g.vv",1); ("U11old",0); ("U11old",0)]);
  when [:: TU2; T2gt 0] ("U21" +== Ein "kc,bi,ackj->abij" [:: ("g.ov",1); ("U11old",0); ("U21old",0)]);
  when [:: TU2; T2gt 0] ("U21" +== Sc (-1) 0 (Ein "kc,ai,bckj->abij" [:: ("g.ov",1); ("U11old",0); ("U21old",0)]));
  when [:: TU2; T2gt 0] ("U21" +== Sc (2) 0 (Ein "kc,ci,bakj->abij" [:: ("g.ov",1); ("U11old",0); ("U21old",0)]));
  when [:: TU2; T2gt 0] ("U21" +== Sc (-1) 0 (Ein "kc,bj,acki->abij" [:: ("g.ov",1); ("U11old",0); ("U21old",0)]));
  when [:: TU2; T2gt 0] ("U21" +== Ein "kc,aj,bcki->abij" [:: ("g.ov",1); ("U11old",0); ("U21old",0)]);
  when [:: TU2; T2gt 0] ("U21" +== Sc (-2) 0 (Ein "kc,cj,baki->abij" [:: ("g.ov",1); ("U11old",0); ("U21old",0)]));
  when [:: TU2; T2gt 0] ("U21" +== Sc (2) 0 (Ein "kc,bk,acji->abij" [:: ("g.ov",1); ("U11old",0); ("U21old",0)]));
  when [:: TU2; T2gt 0] ("U21" +== Sc (-2) 0 (Ein "kc,ak,bcji->abij" [:: ("g.ov",1); ("U11old",0); ("U21old",0)]));
  when [:: TU2; T2gt 0] ("U21" +== Ein "kc,ck,baji->abij" [:: ("g.ov",1); ("U11old",0); ("U21old",0)]);
  when [:: TU2; T2gt 0] ("U21" +== Sc (-1) 0 (Ein "klic,cj,bk,al->abij" [:: ("I.ooov",0); ("T1old",0); ("T1old",0); ("U11old",0)]));
  when [:: TU2; T2gt 0] ("U21" +== Ein "klic,cj,ak,bl->abij" [:: ("I.ooov",0); ("T1old",0); ("T1old",0); ("U11old",0)]);
  when [:: TU2; T2gt 0] ("U21" +== Sc (-1) 0 (Ein "klic,bk,al,cj->abij" [:: ("I.ooov",0); ("T1old",0); ("T1old",0); ("U11old",0)]));
  when [:: TU2; T2gt 0] ("U21" +== Ein "kljc,ci,bk,al->abij" [:: ("I.ooov",0); ("T1old",0); ("T1old",0); ("U11old",0)]);
  when [:: TU2; T2gt 0] ("U21" +== Sc (-1) 0 (Ein "kljc,ci,ak,bl->abij" [:: ("I.ooov",0); ("T1old",0); ("T1old",0); ("U11old",0)]));
  when [:: TU2; T2gt 0] ("U21" +== Ein "kljc,bk,al,ci->abij" [:: ("I.ooov",0); ("T1old",0); ("T1old",0); ("U11old",0)]);
  when [:: TU2; T2gt 0] ("U21" +== Ein "kbcd,di,cj,ak->abij" [:: ("I.ovvv",0); ("T1old",0); ("T1old",0); ("U11old",0)]);
  when [:: TU2; T2gt 0] ("U21" +== Sc (-1) 0 (Ein "kacd,di,cj,bk->abij" [:: ("I.ovvv",0); ("T1old",0); ("T1old",0); ("U11old",0)]));
  when [:: TU2; T2gt 0] ("U21" +== Ein "kbcd,di,ak,cj->abij" [:: ("I.ovvv",0); ("T1old",0); ("T1old",0); ("U11old",0)]);
  when [:: TU2; T2gt 0] ("U21" +== Sc (-1) 0 (Ein "kacd,di,bk,cj->abij" [:: ("I.ovvv",0); ("T1old",0); ("T1old",0); ("U11old",0)]));
  when [:: TU2; T2gt 0] ("U21" +== Sc (-1) 0 (Ein "kbcd,dj,ak,ci->abij" [:: ("I.ovvv",0); ("T1old",0); ("T1old",0); ("U11old",0)]));
  when [:: TU2; T2gt 0] ("U21" +== Ein "kacd,dj,bk,ci->abij" [:: ("I.ovvv",0); ("T1old",0); ("T1old",0); ("U11old",0)]);
  when [:: TU2; T2gt 0] ("U21" +== Mul ("S1old",0) (Ein "kc,ci,bakj->abij" [:: ("g.ov",1); ("T1old",0); ("U21old",0)]));
  when [:: TU2; T2gt 0] ("U21" +== Sc (-1) 0 (Mul ("S1old",0) (Ein "kc,cj,baki->abij" [:: ("g.ov",1); ("T1old",0); ("U21old",0)])));
  when [:: TU2; T2gt 0] ("U21" +== Mul ("S1old",0) (Ein "kc,bk,acji->abij" [:: ("g.ov",1); ("T1old",0); ("U21old",0)]));
  when [:: TU2; T2gt 0] ("U21" +== Sc (-1) 0 (Mul ("S1old",0) (Ein "kc,ak,bcji->abij" [:: ("g.ov",1); ("T1old",0); ("U21old",0)])));
  when [:: TU2; T2gt 0] ("U21" +== Sc (-1) 0 (Mul ("S1old",0) (Ein "kc,bcji,ak->abij" [:: ("g.ov",1); ("T2old",0); ("U11old",0)])));
  when [:: TU2; T2gt 0] ("U21" +== Mul ("S1old",0) (Ein "kc,acji,bk->abij" [:: ("g.ov",1); ("T2old",0); ("U11old",0)]));
  when [:: TU2; T2gt 0] ("U21" +== Sc (-1) 0 (Mul ("S1old",0) (Ein "kc,baki,cj->abij" [:: ("g.ov",1); ("T2old",0); ("U11old",0)])));
  when [:: TU2; T2gt 0] ("U21" +== Mul ("S1old",0) (Ein "kc,bakj,ci->abij" [:: ("g.ov",1); ("T2old",0); ("U11old",0)]));
  when [:: TU2; T2gt 0] ("U21" +== Sc (-1) 1 (Ein "klcd,di,cj,balk->abij" [:: ("I.oovv",0); ("T1old",0); ("T1old",0); ("U21old",0)]));
  when [:: TU2; T2gt 0] ("U21" +== Ein "klcd,di,bk,aclj->abij" [:: ("I.oovv",0); ("T1old",0); ("T1old",0); ("U21old",0)]);
  when [:: TU2; T2gt 0] ("U21" +== Sc (-1) 0 (Ein "klcd,di,ak,bclj->abij" [:: ("I.oovv",0); ("T1old",0); ("T1old",0); ("U21old",0)]));
  when [:: TU2; T2gt 0] ("U21" +== Ein "klcd,di,ck,balj->abij" [:: ("I.oovv",0); ("T1old",0); ("T1old",0); ("U21old",0)]);
  when [:: TU2; T2gt 0] ("U21" +== Sc (-1) 0 (Ein "klcd,dj,bk,acli->abij" [:: ("I.oovv",0); ("T1old",0); ("T1old",0); ("U21old",0)]));
  when [:: TU2; T2gt 0] ("U21" +== Ein "klcd,dj,ak,bcli->abij" [:: ("I.oovv",0); ("T1old",0); ("T1old",0); ("U21old",0)]);
  when [:: TU2; T2gt 0] ("U21" +== Sc (-1) 0 (Ein "klcd,dj,ck,bali->abij" [:: ("I.oovv",0); ("T1old",0); ("T1old",0); ("U21old",0)]));
  when [:: TU2; T2gt 0] ("U21" +== Sc (-1) 1 (Ein "klcd,bk,al,dcji->abij" [:: ("I.oovv",0); ("T1old",0); ("T1old",0); ("U21old",0)]));
  when [:: TU2; T2gt 0] ("U21" +== Ein "klcd,bk,dl,acji->abij" [:: ("I.oovv",0); ("T1old",0); ("T1old",0); ("U21old",0)]);
  when [:: TU2; T2gt 0] ("U21" +== Sc (-1) 0 (Ein "klcd,ak,dl,bcji->abij" [:: ("I.oovv",0); ("T1old",0); ("T1old",0); ("U21old",0)]));
  when [:: TU2; T2gt 0] ("U21" +== Sc (-1) 0 (Ein "klcd,di,bakj,cl->abij" [:: ("I.oovv",0); ("T1old",0); ("T2old",0); ("U11old",0)]));
  when [:: TU2; T2gt 0] ("U21" +== Ein "klcd,di,bckj,al->abij" [:: ("I.oovv",0); ("T1old",0); ("T2old",0); ("U11old",0)]);
  when [:: TU2; T2gt 0] ("U21" +== Sc (-1) 0 (Ein "klcd,di,ackj,bl->abij" [:: ("I.oovv",0); ("T1old",0); ("T2old",0); ("U11old",0)]));
  when [:: TU2; T2gt 0] ("U21" +== Sc (-1) 1 (Ein "klcd,di,balk,cj->abij" [:: ("I.oovv",0); ("T1old",0); ("T2old",0); ("U11old",0)]));
  when [:: TU2; T2gt 0] ("U21" +== Ein "klcd,dj,baki,cl->abij" [:: ("I.oovv",0); ("T1old",0); ("T2old",0); ("U11old",0)]);
  when [:: TU2; T2gt 0] ("U21" +== Sc (-1) 0 (Ein "klcd,dj,bcki,al->abij" [:: ("I.oovv",0); ("T1old",0); ("T2old",0); ("U11old",0)]));
  when [:: TU2; T2gt 0] ("U21" +== Ein "klcd,dj,acki,bl->abij" [:: ("I.oovv",0); ("T1old",0); ("T2old",0); ("U11old",0)]);
  when [:: TU2; T2gt 0] ("U21" +== Sc (-1) 0 (Ein "klcd,bk,adji,cl->abij" [:: ("I.oovv",0); ("T1old",0); ("T2old",0); ("U11old",0)]));
  when [:: TU2; T2gt 0] ("U21" +== Sc (-1) 1 (Ein "klcd,bk,dcji,al->abij" [:: ("I.oovv",0); ("T1old",0); ("T2old",0); ("U11old",0)]));
  when [:: TU2; T2gt 0] ("U21" +== Ein "klcd,ak,bdji,cl->abij" [:: ("I.oovv",0); ("T1old",0); ("T2old",0); ("U11old",0)]);
  when [:: TU2; T2gt 0] ("U21" +== Ein "klcd,dk,bcji,al->abij" [:: ("I.oovv",0); ("T1old",0); ("T2old",0); ("U11old",0)]);
  when [:: TU2; T2gt 0] ("U21" +== Sc (1) 1 (Ein "klcd,ak,dcji,bl->abij" [:: ("I.oovv",0); ("T1old",0); ("T2old",0); ("U11old",0)]));
  when [:: TU2; T2gt 0] ("U21" +== Sc (-1) 0 (Ein "klcd,dk,acji,bl->abij" [:: ("I.oovv",0); ("T1old",0); ("T2old",0); ("U11old",0)]));
  when [:: TU2; T2gt 0] ("U21" +== Ein "klcd,bk,adli,cj->abij" [:: ("I.oovv",0); ("T1old",0); ("T2old",0); ("U11old",0)]);
  when [:: TU2; T2gt 0] ("U21" +== Sc (-1) 0 (Ein "klcd,ak,bdli,cj->abij" [:: ("I.oovv",0); ("T1old",0); ("T2old",0); ("U11old",0)]));
  when [:: TU2; T2gt 0] ("U21" +== Ein "klcd,dk,bali,cj->abij" [:: ("I.oovv",0); ("T1old",0); ("T2old",0); ("U11old",0)]);
  when [:: TU2; T2gt 0] ("U21" +== Sc (1) 1 (Ein "klcd,dj,balk,ci->abij" [:: ("I.oovv",0); ("T1old",0); ("T2old",0); ("U11old",0)]));
  when [:: TU2; T2gt 0] ("U21" +== Sc (-1) 0 (Ein "klcd,bk,adlj,ci->abij" [:: ("I.oovv",0); ("T1old",0); ("T2old",0); ("U11old",0)]));
  when [:: TU2; T2gt 0] ("U21" +== Ein "klcd,ak,bdlj,ci->abij" [:: ("I.oovv",0); ("T1old",0); ("T2old",0); ("U11old",0)]);
  when [:: TU2; T2gt 0] ("U21" +== Sc (-1) 0 (Ein "klcd,dk,balj,ci->abij" [:: ("I.oovv",0); ("T1old",0); ("T2old",0); ("U11old",0)]));
  when [:: TU2; T2gt 0] ("U21" +== Sc (-1) 0 (Ein "kc,ci,bj,ak->abij" [:: ("g.ov",1); ("T1old",0); ("U11old",0); ("U11old",0)]));
  when [:: TU2; T2gt 0] ("U21" +== Ein "kc,ci,aj,bk->abij" [:: ("g.ov",1); ("T1old",0); ("U11old",0); ("U11old",0)]);
  when [:: TU2; T2gt 0] ("U21" +== Ein "kc,cj,bi,ak->abij" [:: ("g.ov",1); ("T1old",0); ("U11old",0); ("U11old",0)]);
  when [:: TU2; T2gt 0] ("U21" +== Sc (-1) 0 (Ein "kc,cj,ai,bk->abij" [:: ("g.ov",1); ("T1old",0); ("U11old",0); ("U11old",0)]));
  when [:: TU2; T2gt 0] ("U21" +== Sc (-1) 0 (Ein "kc,bk,ai,cj->abij" [:: ("g.ov",1); ("T1old",0); ("U11old",0); ("U11old",0)]));
  when [:: TU2; T2gt 0] ("U21" +== Ein "kc,bk,ci,aj->abij" [:: ("g.ov",1); ("T1old",0); ("U11old",0); ("U11old",0)]);
  when [:: TU2; T2gt 0] ("U21" +== Ein "kc,ak,bi,cj->abij" [:: ("g.ov",1); ("T1old",0); ("U11old",0); ("U11old",0)]);
  when [:: TU2; T2gt 0] ("U21" +== Sc (-1) 0 (Ein "kc,ak,ci,bj->abij" [:: ("g.ov",1); ("T1old",0); ("U11old",0); ("U11old",0)]));
  when [:: TU2; T2gt 0; T2gt 1] ("U22" +== Ein "ki,bakj->abij" [:: ("F.oo",0); ("U22old",0)]);
  when [:: TU2; T2gt 0; T2gt 1] ("U22" +== Sc (-1) 0 (Ein "kj,baki->abij" [:: ("F.oo",0); ("U22old",0)]));
  when [:: TU2; T2gt 0; T2gt 1] ("U22" +== Sc (-1) 0 (Ein "bc,acji->abij" [:: ("F.vv",0); ("U22old",0)]));
  when [:: TU2; T2gt 0; T2gt 1] ("U22" +== Ein "ac,bcji->abij" [:: ("F.vv",0); ("U22old",0)]);
  when [:: TU2; T2gt 0; T2gt 1] ("U22" +== Ein "kbji,ak->abij" [:: ("I.ovoo",0); ("U12old",0)]);
  when [:: TU2; T2gt 0; T2gt 1] ("U22" +== Sc (-1) 0 (Ein "kaji,bk->abij" [:: ("I.ovoo",0); ("U12old",0)]));
  when [:: TU2; T2gt 0; T2gt 1] ("U22" +== Sc (-1) 0 (Ein "baic,cj->abij" [:: ("I.vvov",0); ("U12old",0)]));
  when [:: TU2; T2gt 0; T2gt 1] ("U22" +== Ein "bajc,ci->abij" [:: ("I.vvov",0); ("U12old",0)]);
  when [:: TU2; T2gt 0; T2gt 1] ("U22" +== Mul ("w",1) (Ein "baji->abij" [:: ("U22old",0)]));
  when [:: TU2; T2gt 0; T2gt 1] ("U22" +== Mul ("w",1) (Ein "baji->abij" [:: ("U22old",0)]));
  when [:: TU2; T2gt 0; T2gt 1] ("U22" +== Ein "ki,bakj->abij" [:: ("g.oo",1); ("U21old",0)]);
  when [:: TU2; T2gt 0; T2gt 1] ("U22" +== Sc (-1) 0 (Ein "kj,baki->abij" [:: ("g.oo",1); ("U21old",0)]));
  when [:: TU2; T2gt 0; T2gt 1] ("U22" +== Ein "ki,bakj->abij" [:: ("g.oo",1); ("U21old",0)]);
  when [:: TU2; T2gt 0; T2gt 1] ("U22" +== Sc (-1) 0 (Ein "kj,baki->abij" [:: ("g.oo",1); ("U21old",0)]));
  when [:: TU2; T2gt 0; T2gt 1] ("U22" +== Sc (-1) 0 (Ein "bc,acji->abij" [:: ("g.vv",1); ("U21old",0)]));
  when [:: TU2; T2gt 0; T2gt 1] ("U22" +== Ein "ac,bcji->abij" [:: ("g.vv",1); ("U21old",0)]);
  when [:: TU2; T2gt 0; T2gt 1] ("U22" +== Sc (-1) 0 (Ein "bc,acji->abij" [:: ("g.vv",1); ("U21old",0)]));
  when [:: TU2; T2gt 0; T2gt 1] ("U22" +== Ein "ac,bcji->abij" [:: ("g.vv",1); ("U21old",0)]);
  when [:: TU2; T2gt 0; T2gt 1] ("U22" +== Sc (-1) 1 (Ein "klji,balk->abij" [:: ("I.oooo",0); ("U22old",0)]));
  when [:: TU2; T2gt 0; T2gt 1] ("U22" +== Sc (-1) 0 (Ein "kbic,ackj->abij" [:: ("I.ovov",0); ("U22old",0)]));
  when [:: TU2; T2gt 0; T2gt 1] ("U22" +== Ein "kaic,bckj->abij" [:: ("I.ovov",0); ("U22old",0)]);
  when [:: TU2; T2gt 0; T2gt 1] ("U22" +== Ein "kbjc,acki->abij" [:: ("I.ovov",0); ("U22old",0)]);
  when [:: TU2; T2gt 0; T2gt 1] ("U22" +== Sc (-1) 0 (Ein "kajc,bcki->abij" [:: ("I.ovov",0); ("U22old",0)]));
  when [:: TU2; T2gt 0; T2gt 1] ("U22" +== Sc (-1) 1 (Ein "bacd,dcji->abij" [:: ("I.vvvv",0); ("U22old",0)]));
  when [:: TU2; T2gt 0; T2gt 1] ("U22" +== Ein "kc,ci,bakj->abij" [:: ("F.ov",0); ("T1old",0); ("U22old",0)]);
  when [:: TU2; T2gt 0; T2gt 1] ("U22" +== Sc (-1) 0 (Ein "kc,cj,baki->abij" [:: ("F.ov",0); ("T1old",0); ("U22old",0)]));
  when [:: TU2; T2gt 0; T2gt 1] ("U22" +== Ein "kc,bk,acji->abij" [:: ("F.ov",0); ("T1old",0); ("U22old",0)]);
  when [:: TU2; T2gt 0; T2gt 1] ("U22" +== Sc (-1) 0 (Ein "kc,ak,bcji->abij" [:: ("F.ov",0); ("T1old",0); ("U22old",0)]));
  when [:: TU2; T2gt 0; T2gt 1] ("U22" +== Sc (-1) 0 (Ein "kc,bcji,ak->abij" [:: ("F.ov",0); ("T2old",0); ("U12old",0)]));
  when [:: TU2; T2gt 0; T2gt 1] ("U22" +== Ein "kc,acji,bk->abij" [:: ("F.ov",0); ("T2old",0); ("U12old",0)]);
  when [:: TU2; T2gt 0; T2gt 1] ("U22" +== Sc (-1) 0 (Ein "kc,baki,cj->abij" [:: ("F.ov",0); ("T2old",0); ("U12old",0)]));
  when [:: TU2; T2gt 0; T2gt 1] ("U22" +== Ein "kc,bakj,ci->abij" [:: ("F.ov",0); ("T2old",0); ("U12old",0)]);
  when [:: TU2; T2gt 0; T2gt 1] ("U22" +== Ein "klji,bk,al->abij" [:: ("I.oooo",0); ("T1old",0); ("U12old",0)]);
  when [:: TU2; T2gt 0; T2gt 1] ("U22" +== Sc (-1) 0 (Ein "klji,ak,bl->abij" [:: ("I.oooo",0); ("T1old",0); ("U12old",0)]));
  when [:: TU2; T2gt 0; T2gt 1] ("U22" +== Sc (-1) 0 (Ein "kbic,cj,ak->abij" [:: ("I.ovov",0); ("T1old",0); ("U12old",0)]));
  when [:: TU2; T2gt 0; T2gt 1] ("U22" +== Ein "kaic,cj,bk->abij" [:: ("I.ovov",0); ("T1old",0); ("U12old",0)]);
  when [:: TU2; T2gt 0; T2gt 1] ("U22" +== Sc (-1) 0 (Ein "kbic,ak,cj->abij" [:: ("I.ovov",0); ("T1old",0); ("U12old",0)]));
  when [:: TU2; T2gt 0; T2gt 1] ("U22" +== Ein "kaic,bk,cj->abij" [:: ("I.ovov",0); ("T1old",0); ("U12old",0)]);
  when [:: TU2; T2gt 0; T2gt 1] ("U22" +== Ein "kbjc,ci,ak->abij" [:: ("I.ovov",0); ("T1old",0); ("U12old",0)]);
  when [:: TU2; T2gt 0; T2gt 1] ("U22" +== Sc (-1) 0 (Ein "kajc,ci,bk->abij" [:: ("I.ovov",0); ("T1old",0); ("U12old",0)]));
  when [:: TU2; T2gt 0; T2gt 1] ("U22" +== Ein "kbjc,ak,ci->abij" [:: ("I.ovov",0); ("T1old",0); ("U12old",0)]);
  when [:: TU2; T2gt 0; T2gt 1] ("U22" +== Sc (-1) 0 (Ein "kajc,bk,ci->abij" [:: ("I.ovov",0); ("T1old",0); ("U12old",0)]));
  when [:: TU2; T2gt 0; T2gt 1] ("U22" +== Ein "bacd,di,cj->abij" [:: ("I.vvvv",0); ("T1old",0); ("U12old",0)]);
  when [:: TU2; T2gt 0; T2gt 1] ("U22" +== Sc (-1) 0 (Ein "bacd,dj,ci->abij" [:: ("I.vvvv",0); ("T1old",0); ("U12old",0)]));
  when [:: TU2; T2gt 0; T2gt 1] ("U22" +== Mul ("S1old",0) (Ein "ki,bakj->abij" [:: ("g.oo",1); ("U22old",0)]));
  when [:: TU2; T2gt 0; T2gt 1] ("U22" +== Sc (-1) 0 (Mul ("S1old",0) (Ein "kj,baki->abij" [:: ("g.oo",1); ("U22old",0)])));
  when [:: TU2; T2gt 0; T2gt 1; T1gt 2] ("U22" +== Mul ("S2old",0) (Ein "ki,bakj->abij" [:: ("g.oo",1); ("U21old",0)]));
  when [:: TU2; T2gt 0; T2gt 1; T1gt 2] ("U22" +== Sc (-1) 0 (Mul ("S2old",0) (Ein "kj,baki->abij" [:: ("g.oo",1); ("U21old",0)])));
  when [:: TU2; T2gt 0; T2gt 1; T1gt 2] ("U22" +== Mul ("S2old",0) (Ein "ki,bakj->abij" [:: ("g.oo",1); ("U21old",0)]));
  when [:: TU2; T2gt 0; T2gt 1; T1gt 2] ("U22" +== Sc (-1) 0 (Mul ("S2old",0) (Ein "kj,baki->abij" [:: ("g.oo",1); ("U21old",0)])));
  when [:: TU2; T2gt 0; T2gt 1; T1gt 2] ("U22" +== Sc (-1) 0 (Mul ("S2old",0) (Ein "bc,acji->abij" [:: ("g.vv",1); ("U21old",0)])));
  when [:: TU2; T2gt 0; T2gt 1; T1gt 2] ("U22" +== Mul ("S2old",0) (Ein "ac,bcji->abij" [:: ("g.vv",1); ("U21old",0)]));
  when [:: TU2; T2gt 0; T2gt 1; T1gt 2] ("U22" +== Sc (-1) 0 (Mul ("S2old",0) (Ein "bc,acji->abij" [:: ("g.vv",1); ("U21old",0)])));
  when [:: TU2; T2gt 0; T2gt 1; T1gt 2] ("U22" +== Mul ("S2old",0) (Ein "ac,bcji->abij" [:: ("g.vv",1); ("U21old",0)]));
  when [:: TU2; T2gt 0; T2gt 1; T1gt 2] ("U22" +== Mul ("S2old",0) (Ein "kc,ci,bakj->abij" [:: ("g.ov",1); ("T1old",0); ("U21old",0)]));
  when [:: TU2; T2gt 0; T2gt 1; T1gt 2] ("U22" +== Sc (-1) 0 (Mul ("S2old",0) (Ein "kc,cj,baki->abij" [:: ("g.ov",1); ("T1old",0); ("U21old",0)])));
  when [:: TU2; T2gt 0; T2gt 1; T1gt 2] ("U22" +== Mul ("S2old",0) (Ein "kc,bk,acji->abij" [:: ("g.ov",1); ("T1old",0); ("U21old",0)]));
  when [:: TU2; T2gt 0; T2gt 1; T1gt 2] ("U22" +== Sc (-1) 0 (Mul ("S2old",0) (Ein "kc,ak,bcji->abij" [:: ("g.ov",1); ("T1old",0); ("U21old",0)])));
  when [:: TU2; T2gt 0; T2gt 1; T1gt 2] ("U22" +== Mul ("S2old",0) (Ein "kc,ci,bakj->abij" [:: ("g.ov",1); ("T1old",0); ("U21old",0)]));
  when [:: TU2; T2gt 0; T2gt 1; T1gt 2] ("U22" +== Sc (-1) 0 (Mul ("S2old",0) (Ein "kc,cj,baki->abij" [:: ("g.ov",1); ("T1old",0); ("U21old",0)])));
  when [:: TU2; T2gt 0; T2gt 1; T1gt 2] ("U22" +== Mul ("S2old",0) (Ein "kc,bk,acji->abij" [:: ("g.ov",1); ("T1old",0); ("U21old",0)]));
  when [:: TU2; T2gt 0; T2gt 1; T1gt 2] ("U22" +== Sc (-1) 0 (Mul ("S2old",0) (Ein "kc,ak,bcji->abij" [:: ("g.ov",1); ("T1old",0); ("U21old",0)])));
  when [:: TU2; T2gt 0; T2gt 1; T1gt 2] ("U22" +== Sc (-1) 0 (Mul ("S2old",0) (Ein "kc,bcji,ak->abij" [:: ("g.ov",1); ("T2old",0); ("U11old",0)])));
  when [:: TU2; T2gt 0; T2gt 1; T1gt 2] ("U22" +== Mul ("S2old",0) (Ein "kc,acji,bk->abij" [:: ("g.ov",1); ("T2old",0); ("U11old",0)]));
  when [:: TU2; T2gt 0; T2gt 1; T1gt 2] ("U22" +== Sc (-1) 0 (Mul ("S2old",0) (Ein "kc,baki,cj->abij" [:: ("g.ov",1); ("T2old",0); ("U11old",0)])));
  when [:: TU2; T2gt 0; T2gt 1; T1gt 2] ("U22" +== Mul ("S2old",0) (Ein "kc,bakj,ci->abij" [:: ("g.ov",1); ("T2old",0); ("U11old",0)]));
  when [:: TU2; T2gt 0; T2gt 1; T1gt 2] ("U22" +== Sc (-1) 0 (Mul ("S2old",0) (Ein "kc,bcji,ak->abij" [:: ("g.ov",1); ("T2old",0); ("U11old",0)])));
  when [:: TU2; T2gt 0; T2gt 1; T1gt 2] ("U22" +== Mul ("S2old",0) (Ein "kc,acji,bk->abij" [:: ("g.ov",1); ("T2old",0); ("U11old",0)]));
  when [:: TU2; T2gt 0; T2gt 1; T1gt 2] ("U22" +== Sc (-1) 0 (Mul ("S2old",0) (Ein "kc,baki,cj->abij" [:: ("g.ov",1); ("T2old",0); ("U11old",0)])));
  when [:: TU2; T2gt 0; T2gt 1; T1gt 2] ("U22" +== Mul ("S2old",0) (Ein "kc,bakj,ci->abij" [:: ("g.ov",1); ("T2old",0); ("U11old",0)]));
  when [:: TU2; T2gt 0; T2gt 1] ("U22" +== Ein "kc,ci,bakj->abij" [:: ("g.ov",1); ("T1old",0); ("U21old",0)]);
  when [:: TU2; T2gt 0; T2gt 1] ("U22" +== Sc (-1) 0 (Ein "kc,cj,baki->abij" [:: ("g.ov",1); ("T1old",0); ("U21old",0)]));
  when [:: TU2; T2gt 0; T2gt 1] ("U22" +== Ein "kc,bk,acji->abij" [:: ("g.ov",1); ("T1old",0); ("U21old",0)]);
  when [:: TU2; T2gt 0; T2gt 1] ("U22" +== Sc (-1) 0 (Ein "kc,ak,bcji->abij" [:: ("g.ov",1); ("T1old",0); ("U21old",0)]));
  when [:: TU2; T2gt 0; T2gt 1] ("U22" +== Ein "kc,ci,bakj->abij" [:: ("g.ov",1); ("T1old",0); ("U21old",0)]);
  when [:: TU2; T2gt 0; T2gt 1] ("U22" +== Sc (-1) 0 (Ein "kc,cj,baki->abij" [:: ("g.ov",1); ("T1old",0); ("U21old",0)]));
  when [:: TU2; T2gt 0; T2gt 1] ("U22" +== Ein "kc,bk,acji->abij" [:: ("g.ov",1); ("T1old",0); ("U21old",0)]);
  when [:: TU2; T2gt 0; T2gt 1] ("U22" +== Sc (-1) 0 (Ein "kc,ak,bcji->abij" [:: ("g.ov",1); ("T1old",0); ("U21old",0)]));
  when [:: TU2; T2gt 0; T2gt 1] ("U22" +== Sc (-1) 0 (Ein "kc,bcji,ak->abij" [:: ("g.ov",1); ("T2old",0); ("U11old",0)]));
  when [:: TU2; T2gt 0; T2gt 1] ("U22" +== Ein "kc,acji,bk->abij" [:: ("g.ov",1); ("T2old",0); ("U11old",0)]);
  when [:: TU2; T2gt 0; T2gt 1] ("U22" +== Sc (-1) 0 (Ein "kc,baki,cj->abij" [:: ("g.ov",1); ("T2old",0); ("U11old",0)]));
  when [:: TU2; T2gt 0; T2gt 1] ("U22" +== Ein "kc,bakj,ci->abij" [:: ("g.ov",1); ("T2old",0); ("U11old",0)]);
  when [:: TU2; T2gt 0; T2gt 1] ("U22" +== Sc (-1) 0 (Ein "kc,bcji,ak->abij" [:: ("g.ov",1); ("T2old",0); ("U11old",0)]));
  when [:: TU2; T2gt 0; T2gt 1] ("U22" +== Ein "kc,acji,bk->abij" [:: ("g.ov",1); ("T2old",0); ("U11old",0)]);
  when [:: TU2; T2gt 0; T2gt 1] ("U22" +== Sc (-1) 0 (Ein "kc,baki,cj->abij" [:: ("g.ov",1); ("T2old",0); ("U11old",0)]));
  when [:: TU2; T2gt 0; T2gt 1] ("U22" +== Ein "kc,bakj,ci->abij" [:: ("g.ov",1); ("T2old",0); ("U11old",0)]);
  when [:: TU2; T2gt 0; T2gt 1] ("U22" +== Sc (-1) 0 (Mul ("S1old",0) (Ein "bc,acji->abij" [:: ("g.vv",1); ("U22old",0)])));
  when [:: TU2; T2gt 0; T2gt 1] ("U22" +== Mul ("S1old",0) (Ein "ac,bcji->abij" [:: ("g.vv",1); ("U22old",0)]));
  when [:: TU2; T2gt 0; T2gt 1] ("U22" +== Sc (1) 1 (Ein "klic,cj,balk->abij" [:: ("I.ooov",0); ("T1old",0); ("U22old",0)]));
  when [:: TU2; T2gt 0; T2gt 1] ("U22" +== Sc (-1) 0 (Ein "klic,bk,aclj->abij" [:: ("I.ooov",0); ("T1old",0); ("U22old",0)]));
  when [:: TU2; T2gt 0; T2gt 1] ("U22" +== Ein "klic,ak,bclj->abij" [:: ("I.ooov",0); ("T1old",0); ("U22old",0)]);
  when [:: TU2; T2gt 0; T2gt 1] ("U22" +== Sc (-1) 0 (Ein "klic,ck,balj->abij" [:: ("I.ooov",0); ("T1old",0); ("U22old",0)]));
  when [:: TU2; T2gt 0; T2gt 1] ("U22" +== Sc (-1) 1 (Ein "kljc,ci,balk->abij" [:: ("I.ooov",0); ("T1old",0); ("U22old",0)]));
  when [:: TU2; T2gt 0; T2gt 1] ("U22" +== Ein "kljc,bk,acli->abij" [:: ("I.ooov",0); ("T1old",0); ("U22old",0)]);
  when [:: TU2; T2gt 0; T2gt 1] ("U22" +== Sc (-1) 0 (Ein "kljc,ak,bcli->abij" [:: ("I.ooov",0); ("T1old",0); ("U22old",0)]));
  when [:: TU2; T2gt 0; T2gt 1] ("U22" +== Ein "kljc,ck,bali->abij" [:: ("I.ooov",0); ("T1old",0); ("U22old",0)]);
  when [:: TU2; T2gt 0; T2gt 1] ("U22" +== Ein "klic,bakj,cl->abij" [:: ("I.ooov",0); ("T2old",0); ("U12old",0)]);
  when [:: TU2; T2gt 0; T2gt 1] ("U22" +== Sc (-1) 0 (Ein "klic,bckj,al->abij" [:: ("I.ooov",0); ("T2old",0); ("U12old",0)]));
  when [:: TU2; T2gt 0; T2gt 1] ("U22" +== Ein "klic,ackj,bl->abij" [:: ("I.ooov",0); ("T2old",0); ("U12old",0)]);
  when [:: TU2; T2gt 0; T2gt 1] ("U22" +== Sc (1) 1 (Ein "klic,balk,cj->abij" [:: ("I.ooov",0); ("T2old",0); ("U12old",0)]));
  when [:: TU2; T2gt 0; T2gt 1] ("U22" +== Sc (-1) 0 (Ein "kljc,baki,cl->abij" [:: ("I.ooov",0); ("T2old",0); ("U12old",0)]));
  when [:: TU2; T2gt 0; T2gt 1] ("U22" +== Ein "kljc,bcki,al->abij" [:: ("I.ooov",0); ("T2old",0); ("U12old",0)]);
  when [:: TU2; T2gt 0; T2gt 1] ("U22" +== Sc (-1) 0 (Ein "kljc,acki,bl->abij" [:: ("I.ooov",0); ("T2old",0); ("U12old",0)]));
  when [:: TU2; T2gt 0; T2gt 1] ("U22" +== Sc (-1) 1 (Ein "kljc,balk,ci->abij" [:: ("I.ooov",0); ("T2old",0); ("U12old",0)]));
  when [:: TU2; T2gt 0; T2gt 1] ("U22" +== Ein "kbcd,di,ackj->abij" [:: ("I.ovvv",0); ("T1old",0); ("U22old",0)]);
  when [:: TU2; T2gt 0; T2gt 1] ("U22" +== Sc (-1) 0 (Ein "kacd,di,bckj->abij" [:: ("I.ovvv",0); ("T1old",0); ("U22old",0)]));
  when [:: TU2; T2gt 0; T2gt 1] ("U22" +== Sc (-1) 0 (Ein "kbcd,dj,acki->abij" [:: ("I.ovvv",0); ("T1old",0); ("U22old",0)]));
  when [:: TU2; T2gt 0; T2gt 1] ("U22" +== Ein "kacd,dj,bcki->abij" [:: ("I.ovvv",0); ("T1old",0); ("U22old",0)]);
  when [:: TU2; T2gt 0; T2gt 1] ("U22" +== Sc (-1) 1 (Ein "kbcd,ak,dcji->abij" [:: ("I.ovvv",0); ("T1old",0); ("U22old",0)]));
  when [:: TU2; T2gt 0; T2gt 1] ("U22" +== Ein "kbcd,dk,acji->abij" [:: ("I.ovvv",0); ("T1old",0); ("U22old",0)]);
  when [:: TU2; T2gt 0; T2gt 1] ("U22" +== Sc (1) 1 (Ein "kacd,bk,dcji->abij" [:: ("I.ovvv",0); ("T1old",0); ("U22old",0)]));
  when [:: TU2; T2gt 0; T2gt 1] ("U22" +== Sc (-1) 0 (Ein "kacd,dk,bcji->abij" [:: ("I.ovvv",0); ("T1old",0); ("U22old",0)]));
  when [:: TU2; T2gt 0; T2gt 1] ("U22" +== Sc (-1) 0 (Ein "kbcd,adji,ck->abij" [:: ("I.ovvv",0); ("T2old",0); ("U12old",0)]));
  when [:: TU2; T2gt 0; T2gt 1] ("U22" +== Sc (-1) 1 (Ein "kbcd,dcji,ak->abij" [:: ("I.ovvv",0); ("T2old",0); ("U12old",0)]));
  when [:: TU2; T2gt 0; T2gt 1] ("U22" +== Ein "kacd,bdji,ck->abij" [:: ("I.ovvv",0); ("T2old",0); ("U12old",0)]);
  when [:: TU2; T2gt 0; T2gt 1] ("U22" +== Sc (1) 1 (Ein "kacd,dcji,bk->abij" [:: ("I.ovvv",0); ("T2old",0); ("U12old",0)]));
  when [:: TU2; T2gt 0; T2gt 1] ("U22" +== Ein "kbcd,adki,cj->abij" [:: ("I.ovvv",0); ("T2old",0); ("U12old",0)]);
  when [:: TU2; T2gt 0; T2gt 1] ("U22" +== Sc (-1) 0 (Ein "kacd,bdki,cj->abij" [:: ("I.ovvv",0); ("T2old",0); ("U12old",0)]));
  when [:: TU2; T2gt 0; T2gt 1] ("U22" +== Sc (-1) 0 (Ein "kbcd,adkj,ci->abij" [:: ("I.ovvv",0); ("T2old",0); ("U12old",0)]));
  when [:: TU2; T2gt 0; T2gt 1] ("U22" +== Ein "kacd,bdkj,ci->abij" [:: ("I.ovvv",0); ("T2old",0); ("U12old",0)]);
  when [:: TU2; T2gt 0; T2gt 1] ("U22" +== Sc (-1) 1 (Ein "klcd,bdji,aclk->abij" [:: ("I.oovv",0); ("T2old",0); ("U22old",0)]));
  when [:: TU2; T2gt 0; T2gt 1] ("U22" +== Sc (1) 1 (Ein "klcd,adji,bclk->abij" [:: ("I.oovv",0); ("T2old",0); ("U22old",0)]));
  when [:: TU2; T2gt 0; T2gt 1] ("U22" +== Sc (1) 2 (Ein "klcd,dcji,balk->abij" [:: ("I.oovv",0); ("T2old",0); ("U22old",0)]));
  when [:: TU2; T2gt 0; T2gt 1] ("U22" +== Sc (-1) 1 (Ein "klcd,baki,dclj->abij" [:: ("I.oovv",0); ("T2old",0); ("U22old",0)]));
  when [:: TU2; T2gt 0; T2gt 1] ("U22" +== Ein "klcd,bdki,aclj->abij" [:: ("I.oovv",0); ("T2old",0); ("U22old",0)]);
  when [:: TU2; T2gt 0; T2gt 1] ("U22" +== Sc (-1) 0 (Ein "klcd,adki,bclj->abij" [:: ("I.oovv",0); ("T2old",0); ("U22old",0)]));
  when [:: TU2; T2gt 0; T2gt 1] ("U22" +== Sc (-1) 1 (Ein "klcd,dcki,balj->abij" [:: ("I.oovv",0); ("T2old",0); ("U22old",0)]));
  when [:: TU2; T2gt 0; T2gt 1] ("U22" +== Sc (1) 1 (Ein "klcd,bakj,dcli->abij" [:: ("I.oovv",0); ("T2old",0); ("U22old",0)]));
  when [:: TU2; T2gt 0; T2gt 1] ("U22" +== Sc (-1) 0 (Ein "klcd,bdkj,acli->abij" [:: ("I.oovv",0); ("T2old",0); ("U22old",0)]));
  when [:: TU2; T2gt 0; T2gt 1] ("U22" +== Ein "klcd,adkj,bcli->abij" [:: ("I.oovv",0); ("T2old",0); ("U22old",0)]);
  when [:: TU2; T2gt 0; T2gt 1] ("U22" +== Sc (1) 1 (Ein "klcd,dckj,bali->abij" [:: ("I.oovv",0); ("T2old",0); ("U22old",0)]));
  when [:: TU2; T2gt 0; T2gt 1] ("U22" +== Sc (1) 2 (Ein "klcd,balk,dcji->abij" [:: ("I.oovv",0); ("T2old",0); ("U22old",0)]));
  when [:: TU2; T2gt 0; T2gt 1] ("U22" +== Sc (-1) 1 (Ein "klcd,bdlk,acji->abij" [:: ("I.oovv",0); ("T2old",0); ("U22old",0)]));
  when [:: TU2; T2gt 0; T2gt 1] ("U22" +== Sc (1) 1 (Ein "klcd,adlk,bcji->abij" [:: ("I.oovv",0); ("T2old",0); ("U22old",0)]));
  when [:: TU2; T2gt 0; T2gt 1] ("U22" +== Sc (2) 0 (Ein "kc,ci,bakj->abij" [:: ("F.ov",0); ("U11old",0); ("U21old",0)]));
  when [:: TU2; T2gt 0; T2gt 1] ("U22" +== Sc (-2) 0 (Ein "kc,cj,baki->abij" [:: ("F.ov",0); ("U11old",0); ("U21old",0)]));
  when [:: TU2; T2gt 0; T2gt 1] ("U22" +== Sc (2) 0 (Ein "kc,bk,acji->abij" [:: ("F.ov",0); ("U11old",0); ("U21old",0)]));
  when [:: TU2; T2gt 0; T2gt 1] ("U22" +== Sc (-2) 0 (Ein "kc,ak,bcji->abij" [:: ("F.ov",0); ("U11old",0); ("U21old",0)]));
  when [:: TU2; T2gt 0; T2gt 1] ("U22" +== Sc (2) 0 (Ein "klji,bk,al->abij" [:: ("I.oooo",0); ("U11old",0); ("U11old",0)]));
  when [:: TU2; T2gt 0; T2gt 1] ("U22" +== Sc (-2) 0 (Ein "kbic,cj,ak->abij" [:: ("I.ovov",0); ("U11old",0); ("U11old",0)]));
  when [:: TU2; T2gt 0; T2gt 1] ("U22" +== Sc (2) 0 (Ein "kaic,cj,bk->abij" [:: ("I.ovov",0); ("U11old",0); ("U11old",0)]));
  when [:: TU2; T2gt 0; T2gt 1] ("U22" +== Sc (2) 0 (Ein "kbjc,ci,ak->abij" [:: ("I.ovov",0); ("U11old",0); ("U11old",0)]));
  when [:: TU2; T2gt 0; T2gt 1] ("U22" +== Sc (-2) 0 (Ein "kajc,ci,bk->abij" [:: ("I.ovov",0); ("U11old",0); ("U11old",0)]));
  when [:: TU2; T2gt 0; T2gt 1] ("U22" +== Sc (2) 0 (Ein "bacd,di,cj->abij" [:: ("I.vvvv",0); ("U11old",0); ("U11old",0)]));
  when [:: TU2; T2gt 0; T2gt 1] ("U22" +== Ein "ki,bk,aj->abij" [:: ("g.oo",1); ("U11old",0); ("U12old",0)]);
  when [:: TU2; T2gt 0; T2gt 1] ("U22" +== Sc (-1) 0 (Ein "ki,ak,bj->abij" [:: ("g.oo",1); ("U11old",0); ("U12old",0)]));
  when [:: TU2; T2gt 0; T2gt 1] ("U22" +== Sc (-1) 0 (Ein "kj,bk,ai->abij" [:: ("g.oo",1); ("U11old",0); ("U12old",0)]));
  when [:: TU2; T2gt 0; T2gt 1] ("U22" +== Ein "kj,ak,bi->abij" [:: ("g.oo",1); ("U11old",0); ("U12old",0)]);
  when [:: TU2; T2gt 0; T2gt 1] ("U22" +== Ein "ki,bk,aj->abij" [:: ("g.oo",1); ("U11old",0); ("U12old",0)]);
  when [:: TU2; T2gt 0; T2gt 1] ("U22" +== Sc (-1) 0 (Ein "ki,ak,bj->abij" [:: ("g.oo",1); ("U11old",0); ("U12old",0)]));
  when [:: TU2; T2gt 0; T2gt 1] ("U22" +== Sc (-1) 0 (Ein "kj,bk,ai->abij" [:: ("g.oo",1); ("U11old",0); ("U12old",0)]));
  when [:: TU2; T2gt 0; T2gt 1] ("U22" +== Ein "kj,ak,bi->abij" [:: ("g.oo",1); ("U11old",0); ("U12old",0)]);
  when [:: TU2; T2gt 0; T2gt 1] ("U22" +== Sc (-1) 0 (Ein "ki,bj,ak->abij" [:: ("g.oo",1); ("U11old",0); ("U12old",0)]));
  when [:: TU2; T2gt 0; T2gt 1] ("U22" +== Ein "ki,aj,bk->abij" [:: ("g.oo",1); ("U11old",0); ("U12old",0)]);
  when [:: TU2; T2gt 0; T2gt 1] ("U22" +== Ein "kj,bi,ak->abij" [:: ("g.oo",1); ("U11old",0); ("U12old",0)]);
  when [:: TU2; T2gt 0; T2gt 1] ("U22" +== Sc (-1) 0 (Ein "kj,ai,bk->abij" [:: ("g.oo",1); ("U11old",0); ("U12old",0)]));
  when [:: TU2; T2gt 0; T2gt 1] ("U22" +== Sc (-1) 0 (Ein "bc,ci,aj->abij" [:: ("g.vv",1); ("U11old",0); ("U12old",0)]));
  when [:: TU2; T2gt 0; T2gt 1] ("U22" +== Ein "ac,ci,bj->abij" [:: ("g.vv",1); ("U11old",0); ("U12old",0)]);
  when [:: TU2; T2gt 0; T2gt 1] ("U22" +== Ein "bc,cj,ai->abij" [:: ("g.vv",1); ("U11old",0); ("U12old",0)]);
  when [:: TU2; T2gt 0; T2gt 1] ("U22" +== Sc (-1) 0 (Ein "ac,cj,bi->abij" [:: ("g.vv",1); ("U11old",0); ("U12old",0)]));
  when [:: TU2; T2gt 0; T2gt 1] ("U22" +== Sc (-1) 0 (Ein "bc,ci,aj->abij" [:: ("g.vv",1); ("U11old",0); ("U12old",0)]));
  when [:: TU2; T2gt 0; T2gt 1] ("U22" +== Ein "ac,ci,bj->abij" [:: ("g.vv",1); ("U11old",0); ("U12old",0)]);
  when [:: TU2; T2gt 0; T2gt 1] ("U22" +== Ein "bc,cj,ai->abij" [:: ("g.vv",1); ("U11old",0); ("U12old",0)]);
  when [:: TU2; T2gt 0; T2gt 1] ("U22" +== Sc (-1) 0 (Ein "ac,cj,bi->abij" [:: ("g.vv",1); ("U11old",0); ("U12old",0)]));
  when [:: TU2; T2gt 0; T2gt 1] ("U22" +== Ein "bc,ai,cj->abij" [:: ("g.vv",1); ("U11old",0); ("U12old",0)]);
  when [:: TU2; T2gt 0; T2gt 1] ("U22" +== Sc (-1) 0 (Ein "ac,bi,cj->abij" [:: ("g.vv",1); ("U11old",0); ("U12old",0)]));
  when [:: TU2; T2gt 0; T2gt 1] ("U22" +== Sc (-1) 0 (Ein "bc,aj,ci->abij" [:: ("g.vv",1); ("U11old",0); ("U12old",0)]));
  when [:: TU2; T2gt 0; T2gt 1] ("U22" +== Ein "ac,bj,ci->abij" [:: ("g.vv",1); ("U11old",0); ("U12old",0)]);
  when [:: TU2; T2gt 0; T2gt 1] ("U22" +== Ein "klic,cj,balk->abij" [:: ("I.ooov",0); ("U11old",0); ("U21old",0)]);
  when [:: TU2; T2gt 0; T2gt 1] ("U22" +== Sc (-2) 0 (Ein "klic,bk,aclj->abij" [:: ("I.ooov",0); ("U11old",0); ("U21old",0)]));
  when [:: TU2; T2gt 0; T2gt 1] ("U22" +== Sc (2) 0 (Ein "klic,ak,bclj->abij" [:: ("I.ooov",0); ("U11old",0); ("U21old",0)]));
  when [:: TU2; T2gt 0; T2gt 1] ("U22" +== Sc (-2) 0 (Ein "klic,ck,balj->abij" [:: ("I.ooov",0); ("U11old",0); ("U21old",0)]));
  when [:: TU2; T2gt 0; T2gt 1] ("U22" +== Sc (-1) 0 (Ein "kljc,ci,balk->abij" [:: ("I.ooov",0); ("U11old",0); ("U21old",0)]));
  when [:: TU2; T2gt 0; T2gt 1] ("U22" +== Sc (2) 0 (Ein "kljc,bk,acli->abij" [:: ("I.ooov",0); ("U11old",0); ("U21old",0)]));
  when [:: TU2; T2gt 0; T2gt 1] ("U22" +== Sc (-2) 0 (Ein "kljc,ak,bcli->abij" [:: ("I.ooov",0); ("U11old",0); ("U21old",0)]));
  when [:: TU2; T2gt 0; T2gt 1] ("U22" +== Sc (2) 0 (Ein "kljc,ck,bali->abij" [:: ("I.ooov",0); ("U11old",0); ("U21old",0)]));
  when [:: TU2; T2gt 0; T2gt 1] ("U22" +== Sc (2) 0 (Ein "kbcd,di,ackj->abij" [:: ("I.ovvv",0); ("U11old",0); ("U21old",0)]));
  when [:: TU2; T2gt 0; T2gt 1] ("U22" +== Sc (-2) 0 (Ein "kacd,di,bckj->abij" [:: ("I.ovvv",0); ("U11old",0); ("U21old",0)]));
  when [:: TU2; T2gt 0; T2gt 1] ("U22" +== Sc (-2) 0 (Ein "kbcd,dj,acki->abij" [:: ("I.ovvv",0); ("U11old",0); ("U21old",0)]));
  when [:: TU2; T2gt 0; T2gt 1] ("U22" +== Sc (2) 0 (Ein "kacd,dj,bcki->abij" [:: ("I.ovvv",0); ("U11old",0); ("U21old",0)]));
  when [:: TU2; T2gt 0; T2gt 1] ("U22" +== Sc (-1) 0 (Ein "kbcd,ak,dcji->abij" [:: ("I.ovvv",0); ("U11old",0); ("U21old",0)]));
  when [:: TU2; T2gt 0; T2gt 1] ("U22" +== Sc (2) 0 (Ein "kbcd,dk,acji->abij" [:: ("I.ovvv",0); ("U11old",0); ("U21old",0)]));
  when [:: TU2; T2gt 0; T2gt 1] ("U22" +== Ein "kacd,bk,dcji->abij" [:: ("I.ovvv",0); ("U11old",0); ("U21old",0)]);
  when [:: TU2; T2gt 0; T2gt 1] ("U22" +== Sc (-2) 0 (Ein "kacd,dk,bcji->abij" [:: ("I.ovvv",0); ("U11old",0); ("U21old",0)]));
  when [:: TU2; T2gt 0; T2gt 1] ("U22" +== Ein "kc,ci,bakj->abij" [:: ("g.ov",1); ("U11old",0); ("U22old",0)]);
  when [:: TU2; T2gt 0; T2gt 1] ("U22" +== Sc (-1) 0 (Ein "kc,cj,baki->abij" [:: ("g.ov",1); ("U11old",0); ("U22old",0)]));
  when [:: TU2; T2gt 0; T2gt 1] ("U22" +== Ein "kc,bk,acji->abij" [:: ("g.ov",1); ("U11old",0); ("U22old",0)]);
  when [:: TU2; T2gt 0; T2gt 1] ("U22" +== Sc (-1) 0 (Ein "kc,ak,bcji->abij" [:: ("g.ov",1); ("U11old",0); ("U22old",0)]));
  when [:: TU2; T2gt 0; T2gt 1] ("U22" +== Ein "kc,ck,baji->abij" [:: ("g.ov",1); ("U11old",0); ("U22old",0)]);
  when [:: TU2; T2gt 0; T2gt 1] ("U22" +== Ein "kc,ci,bakj->abij" [:: ("g.ov",1); ("U11old",0); ("U22old",0)]);
  when [:: TU2; T2gt 0; T2gt 1] ("U22" +== Sc (-1) 0 (Ein "kc,cj,baki->abij" [:: ("g.ov",1); ("U11old",0); ("U22old",0)]));
  when [:: TU2; T2gt 0; T2gt 1] ("U22" +== Ein "kc,bk,acji->abij" [:: ("g.ov",1); ("U11old",0); ("U22old",0)]);
  when [:: TU2; T2gt 0; T2gt 1] ("U22" +== Sc (-1) 0 (Ein "kc,ak,bcji->abij" [:: ("g.ov",1); ("U11old",0); ("U22old",0)]));
  when [:: TU2; T2gt 0; T2gt 1] ("U22" +== Ein "kc,ck,baji->abij" [:: ("g.ov",1); ("U11old",0); ("U22old",0)]);
  when [:: TU2; T2gt 0; T2gt 1] ("U22" +== Ein "kc,bi,ackj->abij" [:: ("g.ov",1); ("U11old",0); ("U22old",0)]);
  when [:: TU2; T2gt 0; T2gt 1] ("U22" +== Sc (-1) 0 (Ein "kc,ai,bckj->abij" [:: ("g.ov",1); ("U11old",0); ("U22old",0)]));
  when [:: TU2; T2gt 0; T2gt 1] ("U22" +== Ein "kc,ci,bakj->abij" [:: ("g.ov",1); ("U11old",0); ("U22old",0)]);
  when [:: TU2; T2gt 0; T2gt 1] ("U22" +== Sc (-1) 0 (Ein "kc,bj,acki->abij" [:: ("g.ov",1); ("U11old",0); ("U22old",0)]));
  when [:: TU2; T2gt 0; T2gt 1] ("U22" +== Ein "kc,aj,bcki->abij" [:: ("g.ov",1); ("U11old",0); ("U22old",0)]);
  when [:: TU2; T2gt 0; T2gt 1] ("U22" +== Sc (-1) 0 (Ein "kc,cj,baki->abij" [:: ("g.ov",1); ("U11old",0); ("U22old",0)]));
  when [:: TU2; T2gt 0; T2gt 1] ("U22" +== Ein "kc,bk,acji->abij" [:: ("g.ov",1); ("U11old",0); ("U22old",0)]);
  when [:: TU2; T2gt 0; T2gt 1] ("U22" +== Sc (-1) 0 (Ein "kc,ak,bcji->abij" [:: ("g.ov",1); ("U11old",0); ("U22old",0)]));
  when [:: TU2; T2gt 0; T2gt 1] ("U22" +== Sc (-1) 0 (Ein "kc,bcji,ak->abij" [:: ("g.ov",1); ("U21old",0); ("U12old",0)]));
  when [:: TU2; T2gt 0; T2gt 1] ("U22" +== Ein "kc,acji,bk->abij" [:: ("g.ov",1); ("U21old",0); ("U12old",0)]);
  when [:: TU2; T2gt 0; T2gt 1] ("U22" +== Sc (-1) 0 (Ein "kc,baki,cj->abij" [:: ("g.ov",1); ("U21old",0); ("U12old",0)]));
  when [:: TU2; T2gt 0; T2gt 1] ("U22" +== Ein "kc,bcki,aj->abij" [:: ("g.ov",1); ("U21old",0); ("U12old",0)]);
  when [:: TU2; T2gt 0; T2gt 1] ("U22" +== Sc (-1) 0 (Ein "kc,acki,bj->abij" [:: ("g.ov",1); ("U21old",0); ("U12old",0)]));
  when [:: TU2; T2gt 0; T2gt 1] ("U22" +== Ein "kc,bakj,ci->abij" [:: ("g.ov",1); ("U21old",0); ("U12old",0)]);
  when [:: TU2; T2gt 0; T2gt 1] ("U22" +== Sc (-1) 0 (Ein "kc,bckj,ai->abij" [:: ("g.ov",1); ("U21old",0); ("U12old",0)]));
  when [:: TU2; T2gt 0; T2gt 1] ("U22" +== Ein "kc,ackj,bi->abij" [:: ("g.ov",1); ("U21old",0); ("U12old",0)]);
  when [:: TU2; T2gt 0; T2gt 1] ("U22" +== Sc (-1) 0 (Ein "kc,bcji,ak->abij" [:: ("g.ov",1); ("U21old",0); ("U12old",0)]));
  when [:: TU2; T2gt 0; T2gt 1] ("U22" +== Ein "kc,acji,bk->abij" [:: ("g.ov",1); ("U21old",0); ("U12old",0)]);
  when [:: TU2; T2gt 0; T2gt 1] ("U22" +== Sc (-1) 0 (Ein "kc,baki,cj->abij" [:: ("g.ov",1); ("U21old",0); ("U12old",0)]));
  when [:: TU2; T2gt 0; T2gt 1] ("U22" +== Ein "kc,bcki,aj->abij" [:: ("g.ov",1); ("U21old",0); ("U12old",0)]);
  when [:: TU2; T2gt 0; T2gt 1] ("U22" +== Sc (-1) 0 (Ein "kc,acki,bj->abij" [:: ("g.ov",1); ("U21old",0); ("U12old",0)]));
  when [:: TU2; T2gt 0; T2gt 1] ("U22" +== Ein "kc,bakj,ci->abij" [:: ("g.ov",1); ("U21old",0); ("U12old",0)]);
  when [:: TU2; T2gt 0; T2gt 1] ("U22" +== Sc (-1) 0 (Ein "kc,bckj,ai->abij" [:: ("g.ov",1); ("U21old",0); ("U12old",0)]));
  when [:: TU2; T2gt 0; T2gt 1] ("U22" +== Ein "kc,ackj,bi->abij" [:: ("g.ov",1); ("U21old",0); ("U12old",0)]);
  when [:: TU2; T2gt 0; T2gt 1] ("U22" +== Ein "kc,baji,ck->abij" [:: ("g.ov",1); ("U21old",0); ("U12old",0)]);
  when [:: TU2; T2gt 0; T2gt 1] ("U22" +== Sc (-1) 0 (Ein "kc,bcji,ak->abij" [:: ("g.ov",1); ("U21old",0); ("U12old",0)]));
  when [:: TU2; T2gt 0; T2gt 1] ("U22" +== Ein "kc,acji,bk->abij" [:: ("g.ov",1); ("U21old",0); ("U12old",0)]);
  when [:: TU2; T2gt 0; T2gt 1] ("U22" +== Sc (-1) 0 (Ein "kc,baki,cj->abij" [:: ("g.ov",1); ("U21old",0); ("U12old",0)]));
  when [:: TU2; T2gt 0; T2gt 1] ("U22" +== Ein "kc,bakj,ci->abij" [:: ("g.ov",1); ("U21old",0); ("U12old",0)]);
  when [:: TU2; T2gt 0; T2gt 1] ("U22" +== Sc (-1) 0 (Ein "klic,cj,bk,al->abij" [:: ("I.ooov",0); ("T1old",0); ("T1old",0); ("U12old",0)]));
  when [:: TU2; T2gt 0; T2gt 1] ("U22" +== Ein "klic,cj,ak,bl->abij" [:: ("I.ooov",0); ("T1old",0); ("T1old",0); ("U12old",0)]);
  when [:: TU2; T2gt 0; T2gt 1] ("U22" +== Sc (-1) 0 (Ein "klic,bk,al,cj->abij" [:: ("I.ooov",0); ("T1old",0); ("T1old",0); ("U12old",0)]));
  when [:: TU2; T2gt 0; T2gt 1] ("U22" +== Ein "kljc,ci,bk,al->abij" [:: ("I.ooov",0); ("T1old",0); ("T1old",0); ("U12old",0)]);
  when [:: TU2; T2gt 0; T2gt 1] ("U22" +== Sc (-1) 0 (Ein "kljc,ci,ak,bl->abij" [:: ("I.ooov",0); ("T1old",0); ("T1old",0); ("U12old",0)]));
  when [:: TU2; T2gt 0; T2gt 1] ("U22" +== Ein "kljc,bk,al,ci->abij" [:: ("I.ooov",0); ("T1old",0); ("T1old",0); ("U12old",0)]);
  when [:: TU2; T2gt 0; T2gt 1] ("U22" +== Ein "kbcd,di,cj,ak->abij" [:: ("I.ovvv",0); ("T1old",0); ("T1old",0); ("U12old",0)]);
  when [:: TU2; T2gt 0; T2gt 1] ("U22" +== Sc (-1) 0 (Ein "kacd,di,cj,bk->abij" [:: ("I.ovvv",0); ("T1old",0); ("T1old",0); ("U12old",0)]));
  when [:: TU2; T2gt 0; T2gt 1] ("U22" +== Ein "kbcd,di,ak,cj->abij" [:: ("I.ovvv",0); ("T1old",0); ("T1old",0); ("U12old",0)]);
  when [:: TU2; T2gt 0; T2gt 1] ("U22" +== Sc (-1) 0 (Ein "kacd,di,bk,cj->abij" [:: ("I.ovvv",0); ("T1old",0); ("T1old",0); ("U12old",0)]));
  when [:: TU2; T2gt 0; T2gt 1] ("U22" +== Sc (-1) 0 (Ein "kbcd,dj,ak,ci->abij" [:: ("I.ovvv",0); ("T1old",0); ("T1old",0); ("U12old",0)]));
  when [:: TU2; T2gt 0; T2gt 1] ("U22" +== Ein "kacd,dj,bk,ci->abij" [:: ("I.ovvv",0); ("T1old",0); ("T1old",0); ("U12old",0)]);
  when [:: TU2; T2gt 0; T2gt 1] ("U22" +== Mul ("S1old",0) (Ein "kc,ci,bakj->abij" [:: ("g.ov",1); ("T1old",0); ("U22old",0)]));
  when [:: TU2; T2gt 0; T2gt 1] ("U22" +== Sc (-1) 0 (Mul ("S1old",0) (Ein "kc,cj,baki->abij" [:: ("g.ov",1); ("T1old",0); ("U22old",0)])));
  when [:: TU2; T2gt 0; T2gt 1] ("U22" +== Mul ("S1old",0) (Ein "kc,bk,acji->abij" [:: ("g.ov",1); ("T1old",0); ("U22old",0)]));
  when [:: TU2; T2gt 0; T2gt 1] ("U22" +== Sc (-1) 0 (Mul ("S1old",0) (Ein "kc,ak,bcji->abij" [:: ("g.ov",1); ("T1old",0); ("U22old",0)])));
  when [:: TU2; T2gt 0; T2gt 1] ("U22" +== Sc (-1) 0 (Mul ("S1old",0) (Ein "kc,bcji,ak->abij" [:: ("g.ov",1); ("T2old",0); ("U12old",0)])));
  when [:: TU2; T2gt 0; T2gt 1] ("U22" +== Mul ("S1old",0) (Ein "kc,acji,bk->abij" [:: ("g.ov",1); ("T2old",0); ("U12old",0)]));
  when [:: TU2; T2gt 0; T2gt 1] ("U22" +== Sc (-1) 0 (Mul ("S1old",0) (Ein "kc,baki,cj->abij" [:: ("g.ov",1); ("T2old",0); ("U12old",0)])));
  when [:: TU2; T2gt 0; T2gt 1] ("U22" +== Mul ("S1old",0) (Ein "kc,bakj,ci->abij" [:: ("g.ov",1); ("T2old",0); ("U12old",0)]));
  when [:: TU2; T2gt 0; T2gt 1] ("U22" +== Sc (-1) 0 (Ein "klcd,bdji,aclk->abij" [:: ("I.oovv",0); ("U21old",0); ("U21old",0)]));
  when [:: TU2; T2gt 0; T2gt 1] ("U22" +== Ein "klcd,adji,bclk->abij" [:: ("I.oovv",0); ("U21old",0); ("U21old",0)]);
  when [:: TU2; T2gt 0; T2gt 1] ("U22" +== Sc (1) 1 (Ein "klcd,dcji,balk->abij" [:: ("I.oovv",0); ("U21old",0); ("U21old",0)]));
  when [:: TU2; T2gt 0; T2gt 1] ("U22" +== Sc (-1) 0 (Ein "klcd,baki,dclj->abij" [:: ("I.oovv",0); ("U21old",0); ("U21old",0)]));
  when [:: TU2; T2gt 0; T2gt 1] ("U22" +== Sc (2) 0 (Ein "klcd,bdki,aclj->abij" [:: ("I.oovv",0); ("U21old",0); ("U21old",0)]));
  when [:: TU2; T2gt 0; T2gt 1] ("U22" +== Sc (-2) 0 (Ein "klcd,adki,bclj->abij" [:: ("I.oovv",0); ("U21old",0); ("U21old",0)]));
  when [:: TU2; T2gt 0; T2gt 1] ("U22" +== Sc (-1) 0 (Ein "klcd,dcki,balj->abij" [:: ("I.oovv",0); ("U21old",0); ("U21old",0)]));
  when [:: TU2; T2gt 0; T2gt 1] ("U22" +== Sc (-1) 1 (Ein "klcd,di,cj,balk->abij" [:: ("I.oovv",0); ("T1old",0); ("T1old",0); ("U22old",0)]));
  when [:: TU2; T2gt 0; T2gt 1] ("U22" +== Ein "klcd,di,bk,aclj->abij" [:: ("I.oovv",0); ("T1old",0); ("T1old",0); ("U22old",0)]);
  when [:: TU2; T2gt 0; T2gt 1] ("U22" +== Sc (-1) 0 (Ein "klcd,di,ak,bclj->abij" [:: ("I.oovv",0); ("T1old",0); ("T1old",0); ("U22old",0)]));
  when [:: TU2; T2gt 0; T2gt 1] ("U22" +== Ein "klcd,di,ck,balj->abij" [:: ("I.oovv",0); ("T1old",0); ("T1old",0); ("U22old",0)]);
  when [:: TU2; T2gt 0; T2gt 1] ("U22" +== Sc (-1) 0 (Ein "klcd,dj,bk,acli->abij" [:: ("I.oovv",0); ("T1old",0); ("T1old",0); ("U22old",0)]));
  when [:: TU2; T2gt 0; T2gt 1] ("U22" +== Ein "klcd,dj,ak,bcli->abij" [:: ("I.oovv",0); ("T1old",0); ("T1old",0); ("U22old",0)]);
  when [:: TU2; T2gt 0; T2gt 1] ("U22" +== Sc (-1) 0 (Ein "klcd,dj,ck,bali->abij" [:: ("I.oovv",0); ("T1old",0); ("T1old",0); ("U22old",0)]));
  when [:: TU2; T2gt 0; T2gt 1] ("U22" +== Sc (-1) 1 (Ein "klcd,bk,al,dcji->abij" [:: ("I.oovv",0); ("T1old",0); ("T1old",0); ("U22old",0)]));
  when [:: TU2; T2gt 0; T2gt 1] ("U22" +== Ein "klcd,bk,dl,acji->abij" [:: ("I.oovv",0); ("T1old",0); ("T1old",0); ("U22old",0)]);
  when [:: TU2; T2gt 0; T2gt 1] ("U22" +== Sc (-1) 0 (Ein "klcd,ak,dl,bcji->abij" [:: ("I.oovv",0); ("T1old",0); ("T1old",0); ("U22old",0)]));
  when [:: TU2; T2gt 0; T2gt 1] ("U22" +== Sc (-1) 0 (Ein "klcd,di,bakj,cl->abij" [:: ("I.oovv",0); ("T1old",0); ("T2old",0); ("U12old",0)]));
  when [:: TU2; T2gt 0; T2gt 1] ("U22" +== Ein "klcd,di,bckj,al->abij" [:: ("I.oovv",0); ("T1old",0); ("T2old",0); ("U12old",0)]);
  when [:: TU2; T2gt 0; T2gt 1] ("U22" +== Sc (-1) 0 (Ein "klcd,di,ackj,bl->abij" [:: ("I.oovv",0); ("T1old",0); ("T2old",0); ("U12old",0)]));
  when [:: TU2; T2gt 0; T2gt 1] ("U22" +== Sc (-1) 1 (Ein "klcd,di,balk,cj->abij" [:: ("I.oovv",0); ("T1old",0); ("T2old",0); ("U12old",0)]));
  when [:: TU2; T2gt 0; T2gt 1] ("U22" +== Ein "klcd,dj,baki,cl->abij" [:: ("I.oovv",0); ("T1old",0); ("T2old",0); ("U12old",0)]);
  when [:: TU2; T2gt 0; T2gt 1] ("U22" +== Sc (-1) 0 (Ein "klcd,dj,bcki,al->abij" [:: ("I.oovv",0); ("T1old",0); ("T2old",0); ("U12old",0)]));
  when [:: TU2; T2gt 0; T2gt 1] ("U22" +== Ein "klcd,dj,acki,bl->abij" [:: ("I.oovv",0); ("T1old",0); ("T2old",0); ("U12old",0)]);
  when [:: TU2; T2gt 0; T2gt 1] ("U22" +== Sc (-1) 0 (Ein "klcd,bk,adji,cl->abij" [:: ("I.oovv",0); ("T1old",0); ("T2old",0); ("U12old",0)]));
  when [:: TU2; T2gt 0; T2gt 1] ("U22" +== Sc (-1) 1 (Ein "klcd,bk,dcji,al->abij" [:: ("I.oovv",0); ("T1old",0); ("T2old",0); ("U12old",0)]));
  when [:: TU2; T2gt 0; T2gt 1] ("U22" +== Ein "klcd,ak,bdji,cl->abij" [:: ("I.oovv",0); ("T1old",0); ("T2old",0); ("U12old",0)]);
  when [:: TU2; T2gt 0; T2gt 1] ("U22" +== Ein "klcd,dk,bcji,al->abij" [:: ("I.oovv",0); ("T1old",0); ("T2old",0); ("U12old",0)]);
  when [:: TU2; T2gt 0; T2gt 1] ("U22" +== Sc (1) 1 (Ein "klcd,ak,dcji,bl->abij" [:: ("I.oovv",0); ("T1old",0); ("T2old",0); ("U12old",0)]));
  when [:: TU2; T2gt 0; T2gt 1] ("U22" +== Sc (-1) 0 (Ein "klcd,dk,acji,bl->abij" [:: ("I.oovv",0); ("T1old",0); ("T2old",0); ("U12old",0)]));
  when [:: TU2; T2gt 0; T2gt 1] ("U22" +== Ein "klcd,bk,adli,cj->abij" [:: ("I.oovv",0); ("T1old",0); ("T2old",0); ("U12old",0)]);
  when [:: TU2; T2gt 0; T2gt 1] ("U22" +== Sc (-1) 0 (Ein "klcd,ak,bdli,cj->abij" [:: ("I.oovv",0); ("T1old",0); ("T2old",0); ("U12old",0)]));
  when [:: TU2; T2gt 0; T2gt 1] ("U22" +== Ein "klcd,dk,bali,cj->abij" [:: ("I.oovv",0); ("T1old",0); ("T2old",0); ("U12old",0)]);
  when [:: TU2; T2gt 0; T2gt 1] ("U22" +== Sc (1) 1 (Ein "klcd,dj,balk,ci->abij" [:: ("I.oovv",0); ("T1old",0); ("T2old",0); ("U12old",0)]));
  when [:: TU2; T2gt 0; T2gt 1] ("U22" +== Sc (-1) 0 (Ein "klcd,bk,adlj,ci->abij" [:: ("I.oovv",0); ("T1old",0); ("T2old",0); ("U12old",0)]));
  when [:: TU2; T2gt 0; T2gt 1] ("U22" +== Ein "klcd,ak,bdlj,ci->abij" [:: ("I.oovv",0); ("T1old",0); ("T2old",0); ("U12old",0)]);
  when [:: TU2; T2gt 0; T2gt 1] ("U22" +== Sc (-1) 0 (Ein "klcd,dk,balj,ci->abij" [:: ("I.oovv",0); ("T1old",0); ("T2old",0); ("U12old",0)]));
  when [:: TU2; T2gt 0; T2gt 1] ("U22" +== Sc (-2) 0 (Ein "klic,cj,bk,al->abij" [:: ("I.ooov",0); ("T1old",0); ("U11old",0); ("U11old",0)]));
  when [:: TU2; T2gt 0; T2gt 1] ("U22" +== Sc (-2) 0 (Ein "klic,bk,cj,al->abij" [:: ("I.ooov",0); ("T1old",0); ("U11old",0); ("U11old",0)]));
  when [:: TU2; T2gt 0; T2gt 1] ("U22" +== Sc (2) 0 (Ein "klic,ak,cj,bl->abij" [:: ("I.ooov",0); ("T1old",0); ("U11old",0); ("U11old",0)]));
  when [:: TU2; T2gt 0; T2gt 1] ("U22" +== Sc (2) 0 (Ein "kljc,ci,bk,al->abij" [:: ("I.ooov",0); ("T1old",0); ("U11old",0); ("U11old",0)]));
  when [:: TU2; T2gt 0; T2gt 1] ("U22" +== Sc (2) 0 (Ein "kljc,bk,ci,al->abij" [:: ("I.ooov",0); ("T1old",0); ("U11old",0); ("U11old",0)]));
  when [:: TU2; T2gt 0; T2gt 1] ("U22" +== Sc (-2) 0 (Ein "kljc,ak,ci,bl->abij" [:: ("I.ooov",0); ("T1old",0); ("U11old",0); ("U11old",0)]));
  when [:: TU2; T2gt 0; T2gt 1] ("U22" +== Sc (2) 0 (Ein "kbcd,di,cj,ak->abij" [:: ("I.ovvv",0); ("T1old",0); ("U11old",0); ("U11old",0)]));
  when [:: TU2; T2gt 0; T2gt 1] ("U22" +== Sc (-2) 0 (Ein "kacd,di,cj,bk->abij" [:: ("I.ovvv",0); ("T1old",0); ("U11old",0); ("U11old",0)]));
  when [:: TU2; T2gt 0; T2gt 1] ("U22" +== Sc (-2) 0 (Ein "kbcd,dj,ci,ak->abij" [:: ("I.ovvv",0); ("T1old",0); ("U11old",0); ("U11old",0)]));
  when [:: TU2; T2gt 0; T2gt 1] ("U22" +== Sc (2) 0 (Ein "kacd,dj,ci,bk->abij" [:: ("I.ovvv",0); ("T1old",0); ("U11old",0); ("U11old",0)]));
  when [:: TU2; T2gt 0; T2gt 1] ("U22" +== Sc (2) 0 (Ein "kbcd,ak,di,cj->abij" [:: ("I.ovvv",0); ("T1old",0); ("U11old",0); ("U11old",0)]));
  when [:: TU2; T2gt 0; T2gt 1] ("U22" +== Sc (-2) 0 (Ein "kacd,bk,di,cj->abij" [:: ("I.ovvv",0); ("T1old",0); ("U11old",0); ("U11old",0)]));
  when [:: TU2; T2gt 0; T2gt 1] ("U22" +== Ein "kc,ci,bk,aj->abij" [:: ("g.ov",1); ("T1old",0); ("U11old",0); ("U12old",0)]);
  when [:: TU2; T2gt 0; T2gt 1] ("U22" +== Sc (-1) 0 (Ein "kc,ci,ak,bj->abij" [:: ("g.ov",1); ("T1old",0); ("U11old",0); ("U12old",0)]));
  when [:: TU2; T2gt 0; T2gt 1] ("U22" +== Ein "kc,bk,ci,aj->abij" [:: ("g.ov",1); ("T1old",0); ("U11old",0); ("U12old",0)]);
  when [:: TU2; T2gt 0; T2gt 1] ("U22" +== Sc (-1) 0 (Ein "kc,ak,ci,bj->abij" [:: ("g.ov",1); ("T1old",0); ("U11old",0); ("U12old",0)]));
  when [:: TU2; T2gt 0; T2gt 1] ("U22" +== Sc (-1) 0 (Ein "kc,cj,bk,ai->abij" [:: ("g.ov",1); ("T1old",0); ("U11old",0); ("U12old",0)]));
  when [:: TU2; T2gt 0; T2gt 1] ("U22" +== Ein "kc,cj,ak,bi->abij" [:: ("g.ov",1); ("T1old",0); ("U11old",0); ("U12old",0)]);
  when [:: TU2; T2gt 0; T2gt 1] ("U22" +== Sc (-1) 0 (Ein "kc,bk,cj,ai->abij" [:: ("g.ov",1); ("T1old",0); ("U11old",0); ("U12old",0)]));
  when [:: TU2; T2gt 0; T2gt 1] ("U22" +== Ein "kc,ak,cj,bi->abij" [:: ("g.ov",1); ("T1old",0); ("U11old",0); ("U12old",0)]);
  when [:: TU2; T2gt 0; T2gt 1] ("U22" +== Ein "kc,ci,bk,aj->abij" [:: ("g.ov",1); ("T1old",0); ("U11old",0); ("U12old",0)]);
  when [:: TU2; T2gt 0; T2gt 1] ("U22" +== Sc (-1) 0 (Ein "kc,ci,ak,bj->abij" [:: ("g.ov",1); ("T1old",0); ("U11old",0); ("U12old",0)]));
  when [:: TU2; T2gt 0; T2gt 1] ("U22" +== Ein "kc,bk,ci,aj->abij" [:: ("g.ov",1); ("T1old",0); ("U11old",0); ("U12old",0)]);
  when [:: TU2; T2gt 0; T2gt 1] ("U22" +== Sc (-1) 0 (Ein "kc,ak,ci,bj->abij" [:: ("g.ov",1); ("T1old",0); ("U11old",0); ("U12old",0)]));
  when [:: TU2; T2gt 0; T2gt 1] ("U22" +== Sc (-1) 0 (Ein "kc,cj,bk,ai->abij" [:: ("g.ov",1); ("T1old",0); ("U11old",0); ("U12old",0)]));
  when [:: TU2; T2gt 0; T2gt 1] ("U22" +== Ein "kc,cj,ak,bi->abij" [:: ("g.ov",1); ("T1old",0); ("U11old",0); ("U12old",0)]);
  when [:: TU2; T2gt 0; T2gt 1] ("U22" +== Sc (-1) 0 (Ein "kc,bk,cj,ai->abij" [:: ("g.ov",1); ("T1old",0); ("U11old",0); ("U12old",0)]));
  when [:: TU2; T2gt 0; T2gt 1] ("U22" +== Ein "kc,ak,cj,bi->abij" [:: ("g.ov",1); ("T1old",0); ("U11old",0); ("U12old",0)]);
  when [:: TU2; T2gt 0; T2gt 1] ("U22" +== Sc (-1) 0 (Ein "kc,ci,bj,ak->abij" [:: ("g.ov",1); ("T1old",0); ("U11old",0); ("U12old",0)]));
  when [:: TU2; T2gt 0; T2gt 1] ("U22" +== Ein "kc,ci,aj,bk->abij" [:: ("g.ov",1); ("T1old",0); ("U11old",0); ("U12old",0)]);
  when [:: TU2; T2gt 0; T2gt 1] ("U22" +== Ein "kc,cj,bi,ak->abij" [:: ("g.ov",1); ("T1old",0); ("U11old",0); ("U12old",0)]);
  when [:: TU2; T2gt 0; T2gt 1] ("U22" +== Sc (-1) 0 (Ein "kc,cj,ai,bk->abij" [:: ("g.ov",1); ("T1old",0); ("U11old",0); ("U12old",0)]));
  when [:: TU2; T2gt 0; T2gt 1] ("U22" +== Sc (-1) 0 (Ein "kc,bk,ai,cj->abij" [:: ("g.ov",1); ("T1old",0); ("U11old",0); ("U12old",0)]));
  when [:: TU2; T2gt 0; T2gt 1] ("U22" +== Ein "kc,ak,bi,cj->abij" [:: ("g.ov",1); ("T1old",0); ("U11old",0); ("U12old",0)]);
  when [:: TU2; T2gt 0; T2gt 1] ("U22" +== Ein "kc,bk,aj,ci->abij" [:: ("g.ov",1); ("T1old",0); ("U11old",0); ("U12old",0)]);
  when [:: TU2; T2gt 0; T2gt 1] ("U22" +== Sc (-1) 0 (Ein "kc,ak,bj,ci->abij" [:: ("g.ov",1); ("T1old",0); ("U11old",0); ("U12old",0)]));
  when [:: TU2; T2gt 0; T2gt 1] ("U22" +== Sc (2) 0 (Mul ("S1old",0) (Ein "kc,ci,bakj->abij" [:: ("g.ov",1); ("U11old",0); ("U21old",0)])));
  when [:: TU2; T2gt 0; T2gt 1] ("U22" +== Sc (-2) 0 (Mul ("S1old",0) (Ein "kc,cj,baki->abij" [:: ("g.ov",1); ("U11old",0); ("U21old",0)])));
  when [:: TU2; T2gt 0; T2gt 1] ("U22" +== Sc (2) 0 (Mul ("S1old",0) (Ein "kc,bk,acji->abij" [:: ("g.ov",1); ("U11old",0); ("U21old",0)])));
  when [:: TU2; T2gt 0; T2gt 1] ("U22" +== Sc (-2) 0 (Mul ("S1old",0) (Ein "kc,ak,bcji->abij" [:: ("g.ov",1); ("U11old",0); ("U21old",0)])));
  when [:: TU2; T2gt 0; T2gt 1] ("U22" +== Sc (-1) 0 (Ein "klcd,di,cj,balk->abij" [:: ("I.oovv",0); ("T1old",0); ("U11old",0); ("U21old",0)]));
  when [:: TU2; T2gt 0; T2gt 1] ("U22" +== Sc (2) 0 (Ein "klcd,di,bk,aclj->abij" [:: ("I.oovv",0); ("T1old",0); ("U11old",0); ("U21old",0)]));
  when [:: TU2; T2gt 0; T2gt 1] ("U22" +== Sc (-2) 0 (Ein "klcd,di,ak,bclj->abij" [:: ("I.oovv",0); ("T1old",0); ("U11old",0); ("U21old",0)]));
  when [:: TU2; T2gt 0; T2gt 1] ("U22" +== Sc (2) 0 (Ein "klcd,di,ck,balj->abij" [:: ("I.oovv",0); ("T1old",0); ("U11old",0); ("U21old",0)]));
  when [:: TU2; T2gt 0; T2gt 1] ("U22" +== Ein "klcd,dj,ci,balk->abij" [:: ("I.oovv",0); ("T1old",0); ("U11old",0); ("U21old",0)]);
  when [:: TU2; T2gt 0; T2gt 1] ("U22" +== Sc (2) 0 (Ein "klcd,bk,di,aclj->abij" [:: ("I.oovv",0); ("T1old",0); ("U11old",0); ("U21old",0)]));
  when [:: TU2; T2gt 0; T2gt 1] ("U22" +== Sc (-2) 0 (Ein "klcd,ak,di,bclj->abij" [:: ("I.oovv",0); ("T1old",0); ("U11old",0); ("U21old",0)]));
  when [:: TU2; T2gt 0; T2gt 1] ("U22" +== Sc (-2) 0 (Ein "klcd,dk,ci,balj->abij" [:: ("I.oovv",0); ("T1old",0); ("U11old",0); ("U21old",0)]));
  when [:: TU2; T2gt 0; T2gt 1] ("U22" +== Sc (-2) 0 (Ein "klcd,dj,bk,acli->abij" [:: ("I.oovv",0); ("T1old",0); ("U11old",0); ("U21old",0)]));
  when [:: TU2; T2gt 0; T2gt 1] ("U22" +== Sc (2) 0 (Ein "klcd,dj,ak,bcli->abij" [:: ("I.oovv",0); ("T1old",0); ("U11old",0); ("U21old",0)]));
  when [:: TU2; T2gt 0; T2gt 1] ("U22" +== Sc (-2) 0 (Ein "klcd,dj,ck,bali->abij" [:: ("I.oovv",0); ("T1old",0); ("U11old",0); ("U21old",0)]));
  when [:: TU2; T2gt 0; T2gt 1] ("U22" +== Sc (-2) 0 (Ein "klcd,bk,dj,acli->abij" [:: ("I.oovv",0); ("T1old",0); ("U11old",0); ("U21old",0)]));
  when [:: TU2; T2gt 0; T2gt 1] ("U22" +== Sc (2) 0 (Ein "klcd,ak,dj,bcli->abij" [:: ("I.oovv",0); ("T1old",0); ("U11old",0); ("U21old",0)]));
  when [:: TU2; T2gt 0; T2gt 1] ("U22" +== Sc (2) 0 (Ein "klcd,dk,cj,bali->abij" [:: ("I.oovv",0); ("T1old",0); ("U11old",0); ("U21old",0)]));
  when [:: TU2; T2gt 0; T2gt 1] ("U22" +== Sc (-1) 0 (Ein "klcd,bk,al,dcji->abij" [:: ("I.oovv",0); ("T1old",0); ("U11old",0); ("U21old",0)]));
  when [:: TU2; T2gt 0; T2gt 1] ("U22" +== Sc (2) 0 (Ein "klcd,bk,dl,acji->abij" [:: ("I.oovv",0); ("T1old",0); ("U11old",0); ("U21old",0)]));
  when [:: TU2; T2gt 0; T2gt 1] ("U22" +== Ein "klcd,ak,bl,dcji->abij" [:: ("I.oovv",0); ("T1old",0); ("U11old",0); ("U21old",0)]);
  when [:: TU2; T2gt 0; T2gt 1] ("U22" +== Sc (-2) 0 (Ein "klcd,dk,bl,acji->abij" [:: ("I.oovv",0); ("T1old",0); ("U11old",0); ("U21old",0)]));
  when [:: TU2; T2gt 0; T2gt 1] ("U22" +== Sc (-2) 0 (Ein "klcd,ak,dl,bcji->abij" [:: ("I.oovv",0); ("T1old",0); ("U11old",0); ("U21old",0)]));
  when [:: TU2; T2gt 0; T2gt 1] ("U22" +== Sc (2) 0 (Ein "klcd,dk,al,bcji->abij" [:: ("I.oovv",0); ("T1old",0); ("U11old",0); ("U21old",0)]));
  when [:: TU2; T2gt 0; T2gt 1] ("U22" +== Sc (2) 0 (Ein "klcd,bdji,ak,cl->abij" [:: ("I.oovv",0); ("T2old",0); ("U11old",0); ("U11old",0)]));
  when [:: TU2; T2gt 0; T2gt 1] ("U22" +== Sc (-2) 0 (Ein "klcd,adji,bk,cl->abij" [:: ("I.oovv",0); ("T2old",0); ("U11old",0); ("U11old",0)]));
  when [:: TU2; T2gt 0; T2gt 1] ("U22" +== Sc (-1) 0 (Ein "klcd,dcji,bk,al->abij" [:: ("I.oovv",0); ("T2old",0); ("U11old",0); ("U11old",0)]));
  when [:: TU2; T2gt 0; T2gt 1] ("U22" +== Sc (2) 0 (Ein "klcd,baki,dj,cl->abij" [:: ("I.oovv",0); ("T2old",0); ("U11old",0); ("U11old",0)]));
  when [:: TU2; T2gt 0; T2gt 1] ("U22" +== Sc (2) 0 (Ein "klcd,bdki,cj,al->abij" [:: ("I.oovv",0); ("T2old",0); ("U11old",0); ("U11old",0)]));
  when [:: TU2; T2gt 0; T2gt 1] ("U22" +== Sc (-2) 0 (Ein "klcd,adki,cj,bl->abij" [:: ("I.oovv",0); ("T2old",0); ("U11old",0); ("U11old",0)]));
  when [:: TU2; T2gt 0; T2gt 1] ("U22" +== Sc (-2) 0 (Ein "klcd,bakj,di,cl->abij" [:: ("I.oovv",0); ("T2old",0); ("U11old",0); ("U11old",0)]));
  when [:: TU2; T2gt 0; T2gt 1] ("U22" +== Sc (-2) 0 (Ein "klcd,bdkj,ci,al->abij" [:: ("I.oovv",0); ("T2old",0); ("U11old",0); ("U11old",0)]));
  when [:: TU2; T2gt 0; T2gt 1] ("U22" +== Sc (2) 0 (Ein "klcd,adkj,ci,bl->abij" [:: ("I.oovv",0); ("T2old",0); ("U11old",0); ("U11old",0)]));
  when [:: TU2; T2gt 0; T2gt 1] ("U22" +== Sc (-1) 0 (Ein "klcd,balk,di,cj->abij" [:: ("I.oovv",0); ("T2old",0); ("U11old",0); ("U11old",0)]));
  when [:: TU2; T2gt 0; T2gt 1] ("U22" +== Sc (2) 0 (Ein "kc,bi,cj,ak->abij" [:: ("g.ov",1); ("U11old",0); ("U11old",0); ("U11old",0)]));
  when [:: TU2; T2gt 0; T2gt 1] ("U22" +== Sc (-2) 0 (Ein "kc,ci,bj,ak->abij" [:: ("g.ov",1); ("U11old",0); ("U11old",0); ("U11old",0)]));
  when [:: TU2; T2gt 0; T2gt 1] ("U22" +== Sc (-2) 0 (Ein "kc,ai,cj,bk->abij" [:: ("g.ov",1); ("U11old",0); ("U11old",0); ("U11old",0)]));
  when [:: TU2; T2gt 0; T2gt 1] ("U22" +== Sc (2) 0 (Ein "kc,ci,aj,bk->abij" [:: ("g.ov",1); ("U11old",0); ("U11old",0); ("U11old",0)]))].

(** /repo/openms/mqed/myqedcc_equations_opt.py lines 46-103, [Imds.build].
    The attributes of the object are the arrays "imds.*". *)
Definition imds_build : prog := [::
  "imds.T2A" :== At ("T2old",0);
  "imds.T1T1" :== Ein "ai,bj->abij" [:: ("T1old",0); ("T1old",0)];
  "imds.T2A" +== Sc (1) 1 (At ("imds.T1T1",0));
  "imds.T2A" +== Sc (-1) 1 (Ein "bi,aj->abij" [:: ("T1old",0); ("T1old",0)]);
  when [:: T2gt 0] ("imds.Xov" :== Ein "ijab,xbj->xia" [:: ("I.oovv",0); ("U1nold[0]",0)]);
  "imds.Fvv" :== At ("F.vv",0);
  "imds.Fvv" +== Sc (-1) 1 (Ein "jb,aj->ab" [:: ("F.ov",0); ("T1old",0)]);
  "imds.Fvv" +== Sc (-1) 0 (Ein "ajcb,cj->ab" [:: ("I.vovv",0); ("T1old",0)]);
  "imds.Fvv" +== Sc (-1) 1 (Ein "jkbc,acjk->ab" [:: ("I.oovv",0); ("imds.T2A",0)]);
  when [:: T1gt 0] ("imds.Fvv" +== Ein "xab,x->ab" [:: ("g.vv",0); ("Snold[0]",0)]);
  when [:: T2gt 0] ("imds.Fvv" +== Sc (-1) 0 (Ein "yjb,yaj->ab" [:: ("g.ov",0); ("U1nold[0]",0)]));
  "imds.Foo" :== At ("F.oo",0);
  "imds.Foo" +== Sc (1) 1 (Ein "jb,bi->ji" [:: ("F.ov",0); ("T1old",0)]);
  "imds.Foo" +== Ein "jkib,bk->ji" [:: ("I.ooov",0); ("T1old",0)];
  "imds.Foo" +== Sc (1) 1 (Ein "jkbc,bcik->ji" [:: ("I.oovv",0); ("imds.T2A",0)]);
  when [:: T1gt 0] ("imds.Foo" +== Ein "xji,x->ji" [:: ("g.oo",0); ("Snold[0]",0)]);
  when [:: T2gt 0] ("imds.Foo" +== Ein "yjb,ybi->ji" [:: ("g.ov",0); ("U1nold[0]",0)]);
  "imds.Wovvo" :== Sc (-1) 0 (Tr [:: 1; 0; 2; 3] (At ("I.vovo",0)));
  "imds.Wovvo" +== Sc (-1) 0 (Ein "bkcd,dj->kbcj" [:: ("I.vovv",0); ("T1old",0)]);
  "imds.Wovvo" +== Ein "kljc,bl->kbcj" [:: ("I.ooov",0); ("T1old",0)];
  "temp" :== Add (Sc (1) 1 (At ("T2old",0))) (Ein "dj,bl->dbjl" [:: ("T1old",0); ("T1old",0)]);
  "imds.Wovvo" +== Sc (-1) 0 (Ein "klcd,dbjl->kbcj" [:: ("I.oovv",0); ("temp",0)]);
  when [:: T2gt 0] ("imds.gU1xy" :== Ein "Jia,Iai->JI" [:: ("g.ov",0); ("U1nold[0]",0)]);
  "imds.gtm" :== Ein "xia,ai->x" [:: ("g.ov",0); ("T1old",0)];
  when [:: T1gt 0] ("imds.gsov" :== Ein "yia,y->ia" [:: ("g.ov",0); ("Snold[0]",0)]);
  "imds.Fov" :== At ("F.ov",0);
  "imds.Fov" +== Ein "jkbc,ck->jb" [:: ("I.oovv",0); ("T1old",0)];
  "imds.Fov" +== At ("imds.gsov",0);
  "imds.gT1oo" :== Ein "Ijb,bi->Iji" [:: ("g.ov",0); ("T1old",0)];
  "imds.gT1T1ov" :== Ein "Iji,aj->Iai" [:: ("imds.gT1oo",0); ("T1old",0)];
  when [:: T2gt 0] ("imds.gvoU11_oovv" :== Ein "Iai,Ibj->abij" [:: ("g.vo",0); ("U1nold[0]",0)])].

(** /repo/openms/mqed/myqedcc_equations_opt.py lines 375-538, [qedccsd_T1T2_opt].
    The results are "T1" and "T2". *)
Definition opt_T1T2 : prog := [::
  when [:: T1gt 0] ("U11old" :== At ("U1nold[0]",0));
  when [:: T1gt 0] ("S1old" :== At ("Snold[0]",0));
  "T1" :== At ("F.vo",0);
  when [:: T1gt 0] ("T1" +== Ein "xai,x->ai" [:: ("g.vo",0); ("S1old",0)]);
  when [:: T1gt 0] ("T1" +== Ein "x,xai->ai" [:: ("G",0); ("U11old",0)]);
  "T2" :== At ("I.vvoo",0);
  when [:: T2gt 0] ("abij_temp" :== Ein "xai,xbj->abij" [:: ("g.vo",0); ("U11old",0)]);
  when [:: T2gt 0] ("T2" +== At ("abij_temp",0));
  when [:: T2gt 0] ("T2" +== Sc (-1) 0 (Tr [:: 1; 0; 2; 3] (At ("abij_temp",0))));
  when [:: T2gt 0] ("T2" +== Sc (-1) 0 (Tr [:: 0; 1; 3; 2] (At ("abij_temp",0))));
  when [:: T2gt 0] ("T2" +== Tr [:: 1; 0; 3; 2] (At ("abij_temp",0)));
  "T2A" :== At ("T2old",0);
  "T1T1" :== Ein "ai,bj->abij" [:: ("T1old",0); ("T1old",0)];
  "T2A" +== Sc (1) 1 (At ("T1T1",0));
  "T2A" +== Sc (-1) 1 (Ein "bi,aj->abij" [:: ("T1old",0); ("T1old",0)]);
  "Fvv" :== At ("F.vv",0);
  "Fvv" +== Sc (-1) 1 (Ein "jb,aj->ab" [:: ("F.ov",0); ("T1old",0)]);
  "Fvv" +== Sc (-1) 0 (Ein "ajcb,cj->ab" [:: ("I.vovv",0); ("T1old",0)]);
  "Fvv" +== Sc (-1) 1 (Ein "jkbc,acjk->ab" [:: ("I.oovv",0); ("T2A",0)]);
  when [:: T1gt 0] ("Fvv" +== Ein "xab,x->ab" [:: ("g.vv",0); ("S1old",0)]);
  when [:: T1gt 0] ("Fvv" +== Sc (-1) 0 (Ein "yjb,yaj->ab" [:: ("g.ov",0); ("U11old",0)]));
  "Foo" :== At ("F.oo",0);
  "Foo" +== Sc (1) 1 (Ein "jb,bi->ji" [:: ("F.ov",0); ("T1old",0)]);
  "Foo" +== Ein "jkib,bk->ji" [:: ("I.ooov",0); ("T1old",0)];
  "Foo" +== Sc (1) 1 (Ein "jkbc,bcik->ji" [:: ("I.oovv",0); ("T2A",0)]);
  when [:: T1gt 0] ("Foo" +== Ein "xji,x->ji" [:: ("g.oo",0); ("S1old",0)]);
  when [:: T1gt 0] ("Foo" +== Ein "yjb,ybi->ji" [:: ("g.ov",0); ("U11old",0)]);
  "Fov" :== At ("F.ov",0);
  "Fov" +== Ein "jkbc,ck->jb" [:: ("I.oovv",0); ("T1old",0)];
  "gsov" :== Ein "yia,y->ia" [:: ("g.ov",0); ("S1old",0)];
  "gtm" :== Ein "xjb,bj->x" [:: ("g.ov",0); ("T1old",0)];
  "Fov" +== At ("gsov",0);
  "T1" +== Ein "ab,bi->ai" [:: ("Fvv",0); ("T1old",0)];
  "T1" +== Sc (-1) 0 (Ein "ji,aj->ai" [:: ("Foo",0); ("T1old",0)]);
  "T1" +== Ein "jb,abij->ai" [:: ("Fov",0); ("T2old",0)];
  "T1" +== Sc (-1) 0 (Ein "ajbi,bj->ai" [:: ("I.vovo",0); ("T1old",0)]);
  "T1" +== Sc (1) 1 (Ein "ajbc,bcij->ai" [:: ("I.vovv",0); ("T2old",0)]);
  "T1" +== Sc (-1) 1 (Ein "jkib,abjk->ai" [:: ("I.ooov",0); ("T2old",0)]);
  "T2B" :== At ("T2old",0);
  "T2B" +== Ein "ai,bj->abij" [:: ("T1old",0); ("T1old",0)];
  "T2B" +== Sc (-1) 0 (Ein "bi,aj->abij" [:: ("T1old",0); ("T1old",0)]);
  "Woooo" :== At ("I.oooo",0);
  "Woooo" +== Ein "klic,cj->klij" [:: ("I.ooov",0); ("T1old",0)];
  "Woooo" +== Sc (-1) 0 (Ein "kljc,ci->klij" [:: ("I.ooov",0); ("T1old",0)]);
  "Woooo" +== Sc (1) 2 (Ein "klcd,cdij->klij" [:: ("I.oovv",0); ("T2B",0)]);
  "T2" +== Sc (1) 1 (Ein "klij,abkl->abij" [:: ("Woooo",0); ("T2B",0)]);
  "Wvvvv" :== At ("I.vvvv",0);
  "Wvvvv" +== Sc (-1) 0 (Ein "akcd,bk->abcd" [:: ("I.vovv",0); ("T1old",0)]);
  "Wvvvv" +== Ein "bkcd,ak->abcd" [:: ("I.vovv",0); ("T1old",0)];
  "Wvvvv" +== Sc (1) 2 (Ein "klcd,abkl->abcd" [:: ("I.oovv",0); ("T2B",0)]);
  "T2" +== Sc (1) 1 (Ein "abcd,cdij->abij" [:: ("Wvvvv",0); ("T2B",0)]);
  "Wovvo" :== Sc (-1) 0 (Tr [:: 1; 0; 2; 3] (At ("I.vovo",0)));
  "Wovvo" +== Sc (-1) 0 (Ein "bkcd,dj->kbcj" [:: ("I.vovv",0); ("T1old",0)]);
  "Wovvo" +== Ein "kljc,bl->kbcj" [:: ("I.ooov",0); ("T1old",0)];
  "temp" :== Add (Sc (1) 1 (At ("T2old",0))) (Ein "dj,bl->dbjl" [:: ("T1old",0); ("T1old",0)]);
  "Wovvo" +== Sc (-1) 0 (Ein "klcd,dbjl->kbcj" [:: ("I.oovv",0); ("temp",0)]);
  "temp" :== Ein "kbcj,acik->abij" [:: ("Wovvo",0); ("T2old",0)];
  "temp" +== Ein "bkcj,ci,ak->abij" [:: ("I.vovo",0); ("T1old",0); ("T1old",0)];
  "T2" +== At ("temp",0);
  "T2" +== Sc (-1) 0 (Tr [:: 0; 1; 3; 2] (At ("temp",0)));
  "T2" +== Sc (-1) 0 (Tr [:: 1; 0; 2; 3] (At ("temp",0)));
  "T2" +== Tr [:: 1; 0; 3; 2] (At ("temp",0));
  "Ftemp" :== Add (At ("Fvv",0)) (Sc (-1) 1 (Ein "jb,aj->ab" [:: ("Fov",0); ("T1old",0)]));
  "temp_ab" :== Ein "bc,acij->abij" [:: ("Ftemp",0); ("T2old",0)];
  "temp_ab" +== Ein "bkij,ak->abij" [:: ("I.vooo",0); ("T1old",0)];
  "T2" +== At ("temp_ab",0);
  "T2" +== Sc (-1) 0 (Tr [:: 1; 0; 2; 3] (At ("temp_ab",0)));
  "Ftemp" :== Add (At ("Foo",0)) (Sc (1) 1 (Ein "jb,bi->ji" [:: ("Fov",0); ("T1old",0)]));
  "temp_ij" :== Sc (-1) 0 (Ein "kj,abik->abij" [:: ("Ftemp",0); ("T2old",0)]);
  "temp_ij" +== Ein "abcj,ci->abij" [:: ("I.vvvo",0); ("T1old",0)];
  "T2" +== At ("temp_ij",0);
  "T2" +== Sc (-1) 0 (Tr [:: 0; 1; 3; 2] (At ("temp_ij",0)));
  "T1" +== Ein "xab,xbi->ai" [:: ("g.vv",0); ("U11old",0)];
  "T1" +== Sc (-1) 0 (Ein "xji,xaj->ai" [:: ("g.oo",0); ("U11old",0)]);
  "T1" +== Ein "x,xai->ai" [:: ("gtm",0); ("U11old",0)];
  "ttt" :== Ein "jb,bi->ji" [:: ("gsov",0); ("T1old",0)];
  "T1" +== Sc (-1) 0 (Ein "ji,aj->ai" [:: ("ttt",0); ("T1old",0)]);
  "gtov" :== Ein "xac,ci->xai" [:: ("g.vv",0); ("T1old",0)];
  "gtov" +== Sc (-1) 0 (Ein "xki,ak->xai" [:: ("g.oo",0); ("T1old",0)]);
  "temp_abij" :== Ein "xai,xbj->abij" [:: ("gtov",0); ("U11old",0)];
  "T2temp" :== Add (At ("T2old",0)) (Sc (-1) 0 (Ein "bi,aj->abij" [:: ("T1old",0); ("T1old",0)]));
  "Wmvo" :== Ein "xkc,acik->xai" [:: ("g.ov",0); ("T2temp",0)];
  "temp_abij" +== Ein "xai,xbj->abij" [:: ("Wmvo",0); ("U11old",0)];
  "T2" +== At ("temp_abij",0);
  "T2" +== Sc (-1) 0 (Tr [:: 1; 0; 2; 3] (At ("temp_abij",0)));
  "T2" +== Sc (-1) 0 (Tr [:: 0; 1; 3; 2] (At ("temp_abij",0)));
  "T2" +== Tr [:: 1; 0; 3; 2] (At ("temp_abij",0));
  "gstv" :== Ein "kc,bk->bc" [:: ("gsov",0); ("T1old",0)];
  "temp_ab" :== Sc (-1) 1 (Ein "bc,acij->abij" [:: ("gstv",0); ("T2old",0)]);
  "T2" +== At ("temp_ab",0);
  "T2" +== Sc (-1) 0 (Tr [:: 1; 0; 2; 3] (At ("temp_ab",0)));
  "gsto" :== Ein "kc,cj->kj" [:: ("gsov",0); ("T1old",0)];
  "temp_ij" :== Sc (-1) 1 (Ein "kj,abik->abij" [:: ("gsto",0); ("T2old",0)]);
  "T2" +== At ("temp_ij",0);
  "T2" +== Sc (-1) 0 (Tr [:: 0; 1; 3; 2] (At ("temp_ij",0)));
  when [:: TU2] ("T1" +== Sc (-1) 0 (Ein "Ijb,Iabji->ai" [:: ("g.ov",0); ("U2nold[0]",0)]));
  when [:: TU2] ("gT2_ovvv" :== Ein "Ikc,Ibcij->bkij" [:: ("g.ov",0); ("U2nold[0]",0)]);
  when [:: TU2] ("T2" +== Ein "Iki,Ibakj->abij" [:: ("g.oo",0); ("U2nold[0]",0)]);
  when [:: TU2] ("T2" +== Sc (-1) 0 (Ein "Ikj,Ibaki->abij" [:: ("g.oo",0); ("U2nold[0]",0)]));
  when [:: TU2] ("T2" +== Ein "Iac,Ibcji->abij" [:: ("g.vv",0); ("U2nold[0]",0)]);
  when [:: TU2] ("T2" +== Sc (-1) 0 (Ein "Ibc,Iacji->abij" [:: ("g.vv",0); ("U2nold[0]",0)]));
  when [:: TU2] ("T2" +== Sc (-1) 0 (Ein "Ikc,ak,Ibcji->abij" [:: ("g.ov",0); ("T1old",0); ("U2nold[0]",0)]));
  when [:: TU2] ("T2" +== Ein "Ikc,bk,Iacji->abij" [:: ("g.ov",0); ("T1old",0); ("U2nold[0]",0)]);
  when [:: TU2] ("T2" +== Ein "Ikc,ci,Ibakj->abij" [:: ("g.ov",0); ("T1old",0); ("U2nold[0]",0)]);
  when [:: TU2] ("T2" +== Sc (-1) 0 (Ein "Ikc,cj,Ibaki->abij" [:: ("g.ov",0); ("T1old",0); ("U2nold[0]",0)]));
  when [:: TU2] ("T2" +== Ein "Ikc,ck,Ibaji->abij" [:: ("g.ov",0); ("T1old",0); ("U2nold[0]",0)])].

(** /repo/openms/mqed/myqedcc_equations_opt.py lines 541-603, [qedccsd_Sn].
    The results are "S1" and "S2" before the loops of lines 573-575 and 597-599
    (see [mask1] and [mask2]). *)
Definition opt_Sn : prog := [::
  when [:: T1gt 0] ("S1" :== Sc (0) 0 (At ("H",0)));
  when [:: T1gt 0] ("S1" +== Ein "I,I->I" [:: ("w",0); ("Snold[0]",0)]);
  when [:: T1gt 0] ("S1" +== Ein "ia,Iai->I" [:: ("F.ov",0); ("U1nold[0]",0)]);
  when [:: T1gt 0] ("S1" +== Ein "Iia,ai->I" [:: ("g.ov",0); ("T1old",0)]);
  when [:: T1gt 0] ("S1" +== Ein "JI,J->I" [:: ("imds.gU1xy",0); ("Snold[0]",0)]);
  when [:: T1gt 0] ("S1" +== Ein "xia,ai->x" [:: ("imds.Xov",0); ("T1old",0)]);
  when [:: T1gt 0; TU2] ("S1" +== Sc (1) 2 (Ein "ijab,Ibaji->I" [:: ("I.oovv",0); ("U2nold[0]",0)]));
  when [:: T1gt 0; T1gt 1] ("S1" +== Ein "J,IJ->I" [:: ("imds.gtm",0); ("Snold[1]",0)]);
  when [:: T1gt 0; T2gt 1] ("S1" +== Ein "Jia,IJai->I" [:: ("g.ov",0); ("U1nold[1]",0)]);
  when [:: T1gt 0; T1gt 1] ("S2" :== Zero "xx");
  when [:: T1gt 0; T1gt 1] ("S2" +== Ein "I,JI->IJ" [:: ("w",0); ("Snold[1]",0)]);
  when [:: T1gt 0; T1gt 1] ("S2" +== Ein "J,IJ->IJ" [:: ("w",0); ("Snold[1]",0)]);
  when [:: T1gt 0; T1gt 1] ("S2" +== Ein "Iia,Jai->IJ" [:: ("g.ov",0); ("U1nold[0]",0)]);
  when [:: T1gt 0; T1gt 1] ("S2" +== Ein "Jia,Iai->IJ" [:: ("g.ov",0); ("U1nold[0]",0)]);
  when [:: T1gt 0; T1gt 1] ("S2" +== Ein "Kia,IK,Jai->IJ" [:: ("g.ov",0); ("Snold[1]",0); ("U1nold[0]",0)]);
  when [:: T1gt 0; T1gt 1] ("S2" +== Ein "Kia,JK,Iai->IJ" [:: ("g.ov",0); ("Snold[1]",0); ("U1nold[0]",0)]);
  when [:: T1gt 0; T1gt 1] ("S2" +== Sc (-1) 0 (Ein "ijab,Ibi,Jaj->IJ" [:: ("I.oovv",0); ("U1nold[0]",0); ("U1nold[0]",0)]));
  when [:: T1gt 0; T1gt 1; T2gt 1] ("S2" +== Ein "ia,IJai->IJ" [:: ("F.ov",0); ("U1nold[1]",0)]);
  when [:: T1gt 0; T1gt 1; T2gt 1; TU2] ("S2" +== Sc (1) 2 (Ein "ijab,IJbaji->IJ" [:: ("I.oovv",0); ("U2nold[1]",0)]));
  when [:: T1gt 0; T1gt 1; T2gt 1] ("S2" +== Ein "Kia,K,IJai->IJ" [:: ("g.ov",0); ("Snold[0]",0); ("U1nold[1]",0)]);
  when [:: T1gt 0; T1gt 1; T2gt 1] ("S2" +== Sc (-1) 0 (Ein "ijab,bi,IJaj->IJ" [:: ("I.oovv",0); ("T1old",0); ("U1nold[1]",0)]))].

(** /repo/openms/mqed/myqedcc_equations_opt.py lines 2251-2560, [qedccsd_U1n_opt].
    The results are "U1n[0]" and "U1n[1]". *)
Definition opt_U1n : prog := [::
  when [:: T2gt 0] ("U1n[0]" :== At ("g.vo",0));
  when [:: T2gt 0] ("U1n[0]" +== Ein "I,Iai->Iai" [:: ("w",0); ("U1nold[0]",0)]);
  when [:: T2gt 0] ("Xov" :== Ein "ijab,xbj->xia" [:: ("I.oovv",0); ("U1nold[0]",0)]);
  when [:: T2gt 0] ("U1n[0]" +== Sc (1) 1 (Ein "xjb,abij->xai" [:: ("Xov",0); ("T2old",0)]));
  when [:: T2gt 0] ("U1n[0]" +== Ein "Iab,bi->Iai" [:: ("g.vv",0); ("T1old",0)]);
  when [:: T2gt 0] ("U1n[0]" +== Sc (-1) 0 (Ein "Iji,aj->Iai" [:: ("g.oo",0); ("T1old",0)]));
  when [:: T2gt 0] ("T2temp" :== Add (At ("T2old",0)) (Sc (-1) 0 (Ein "bi,aj->abij" [:: ("T1old",0); ("T1old",0)])));
  when [:: T2gt 0] ("U1n[0]" +== Ein "xjb,abij->xai" [:: ("h.ov",0); ("T2temp",0)]);
  when [:: T2gt 0] ("U1n[0]" +== Ein "ab,Ibi->Iai" [:: ("imds.Fvv",0); ("U1nold[0]",0)]);
  when [:: T2gt 0] ("U1n[0]" +== Sc (-1) 0 (Ein "ji,xaj->xai" [:: ("imds.Foo",0); ("U1nold[0]",0)]));
  when [:: T2gt 0] ("U1n[0]" +== Ein "jabi,xbj->xai" [:: ("imds.Wovvo",0); ("U1nold[0]",0)]);
  when [:: T2gt 0] ("tmp2321" :== Add (At ("imds.Fov",0)) (At ("imds.gsov",0)));
  when [:: T2gt 0] ("Xvv" :== Ein "jb,aj->ab" [:: ("tmp2321",0); ("T1old",0)]);
  when [:: T2gt 0] ("U1n[0]" +== Sc (-1) 1 (Ein "ab,xbi->xai" [:: ("Xvv",0); ("U1nold[0]",0)]));
  when [:: T2gt 0] ("tmp2324_1" :== Add (At ("imds.Fov",0)) (At ("imds.gsov",0)));
  when [:: T2gt 0] ("Xoo" :== Ein "jb,bi->ji" [:: ("tmp2324_1",0); ("T1old",0)]);
  when [:: T2gt 0] ("U1n[0]" +== Sc (-1) 1 (Ein "ji,xaj->xai" [:: ("Xoo",0); ("U1nold[0]",0)]));
  when [:: T2gt 0] ("Xmm" :== Ein "yjb,xbj->xy" [:: ("g.ov",0); ("U1nold[0]",0)]);
  when [:: T2gt 0] ("U1n[0]" +== Ein "xy,yai->xai" [:: ("Xmm",0); ("U1nold[0]",0)]);
  when [:: T2gt 0; TU2] ("U1n[0]" +== Sc (-1) 0 (Ein "jb,Iabji->Iai" [:: ("F.ov",0); ("U2nold[0]",0)]));
  when [:: T2gt 0; T2gt 1] ("U1n[0]" +== Sc (-1) 0 (Ein "Jji,IJaj->Iai" [:: ("g.oo",0); ("U1nold[1]",0)]));
  when [:: T2gt 0; T2gt 1] ("U1n[0]" +== Ein "Jab,IJbi->Iai" [:: ("g.vv",0); ("U1nold[1]",0)]);
  when [:: T2gt 0; T2gt 1] ("U1n[0]" +== Sc (-1) 0 (Ein "Jjb,aj,IJbi->Iai" [:: ("g.ov",0); ("T1old",0); ("U1nold[1]",0)]));
  when [:: T2gt 0; T2gt 1] ("U1n[0]" +== Sc (-1) 0 (Ein "Jjb,bi,IJaj->Iai" [:: ("g.ov",0); ("T1old",0); ("U1nold[1]",0)]));
  when [:: T2gt 0; T2gt 1] ("U1n[0]" +== Ein "J,IJai->Iai" [:: ("imds.gtm",0); ("U1nold[1]",0)]);
  when [:: T2gt 0; T2gt 1; TU2] ("U1n[0]" +== Sc (-1) 0 (Ein "Jjb,IJabji->Iai" [:: ("g.ov",0); ("U2nold[1]",0)]));
  when [:: T2gt 0; TU2] ("U1n[0]" +== Sc (1) 1 (Ein "jkib,Iabkj->Iai" [:: ("I.ooov",0); ("U2nold[0]",0)]));
  when [:: T2gt 0; TU2] ("U1n[0]" +== Sc (1) 1 (Ein "ajbc,Icbji->Iai" [:: ("I.vovv",0); ("U2nold[0]",0)]));
  when [:: T2gt 0; TU2] ("U1n[0]" +== Sc (-1) 0 (Ein "Jjb,J,Iabji->Iai" [:: ("g.ov",0); ("Snold[0]",0); ("U2nold[0]",0)]));
  when [:: T2gt 0; TU2] ("U1n[0]" +== Sc (-1) 1 (Ein "jkbc,aj,Icbki->Iai" [:: ("I.oovv",0); ("T1old",0); ("U2nold[0]",0)]));
  when [:: T2gt 0; TU2] ("U1n[0]" +== Sc (-1) 1 (Ein "jkbc,ci,Iabkj->Iai" [:: ("I.oovv",0); ("T1old",0); ("U2nold[0]",0)]));
  when [:: T2gt 0; TU2] ("U1n[0]" +== Ein "jkbc,cj,Iabki->Iai" [:: ("I.oovv",0); ("T1old",0); ("U2nold[0]",0)]);
  when [:: T2gt 0; T1gt 1] ("U1n[0]" +== Ein "Jai,IJ->Iai" [:: ("g.vo",0); ("Snold[1]",0)]);
  when [:: T2gt 0; T1gt 1] ("U1n[0]" +== Sc (-1) 0 (Ein "Jji,aj,IJ->Iai" [:: ("g.oo",0); ("T1old",0); ("Snold[1]",0)]));
  when [:: T2gt 0; T1gt 1] ("U1n[0]" +== Ein "Jab,bi,IJ->Iai" [:: ("g.vv",0); ("T1old",0); ("Snold[1]",0)]);
  when [:: T2gt 0; T1gt 1] ("U1n[0]" +== Sc (-1) 0 (Ein "Jjb,abji,IJ->Iai" [:: ("g.ov",0); ("T2old",0); ("Snold[1]",0)]));
  when [:: T2gt 0; T1gt 1] ("U1n[0]" +== Sc (-1) 0 (Ein "Jai,IJ->Iai" [:: ("imds.gT1T1ov",0); ("Snold[1]",0)]));
  when [:: T2gt 0; T2gt 1] ("U1n[1]" :== Zero "xxvo");
  when [:: T2gt 0; T2gt 1] ("U1n[1]" +== Sc (-2) 0 (Ein "Iji,Jaj->IJai" [:: ("g.oo",0); ("U1nold[0]",0)]));
  when [:: T2gt 0; T2gt 1] ("U1n[1]" +== Sc (2) 0 (Ein "Iab,Jbi->IJai" [:: ("g.vv",0); ("U1nold[0]",0)]));
  when [:: T2gt 0; T2gt 1] ("U1n[1]" +== Sc (2) 0 (Ein "I,JIai->IJai" [:: ("w",0); ("U1nold[1]",0)]));
  when [:: T2gt 0; T2gt 1] ("U1n[1]" +== Ein "ab,IJbi->IJai" [:: ("imds.Fvv",0); ("U1nold[1]",0)]);
  when [:: T2gt 0; T2gt 1] ("U1n[1]" +== Sc (-1) 0 (Ein "ji,IJaj->IJai" [:: ("imds.Foo",0); ("U1nold[1]",0)]));
  when [:: T2gt 0; T2gt 1] ("gU11_vv" :== Sc (-1) 0 (Ein "Jjb,Iaj->JIab" [:: ("g.ov",0); ("U1nold[0]",0)]));
  when [:: T2gt 0; T2gt 1] ("U1n[1]" +== Sc (2) 0 (Ein "KIab,JKbi->IJai" [:: ("gU11_vv",0); ("U1nold[1]",0)]));
  when [:: T2gt 0; T2gt 1] ("gU11_oo" :== Sc (-1) 0 (Ein "Kjb,Ibi->KIij" [:: ("g.ov",0); ("U1nold[0]",0)]));
  when [:: T2gt 0; T2gt 1] ("U1n[1]" +== Sc (2) 0 (Ein "KIij,JKaj->IJai" [:: ("gU11_oo",0); ("U1nold[1]",0)]));
  when [:: T2gt 0; T2gt 1] ("U1n[1]" +== Ein "jabi,IJbj->IJai" [:: ("imds.Wovvo",0); ("U1nold[1]",0)]);
  when [:: T2gt 0; T2gt 1] ("U1n[1]" +== Sc (-1) 1 (Ein "ab,IJbi->IJai" [:: ("Xvv",0); ("U1nold[1]",0)]));
  when [:: T2gt 0; T2gt 1] ("U1n[1]" +== Sc (-1) 1 (Ein "ji,IJaj->IJai" [:: ("Xoo",0); ("U1nold[1]",0)]));
  when [:: T2gt 0; T2gt 1] ("U1n[1]" +== Sc (2) 0 (Ein "IK,JKai->IJai" [:: ("Xmm",0); ("U1nold[1]",0)]));
  when [:: T2gt 0; T2gt 1] ("Xmmm" :== Ein "Kjb,IJbj->IJK" [:: ("g.ov",0); ("U1nold[1]",0)]);
  when [:: T2gt 0; T2gt 1] ("U1n[1]" +== Ein "Kai,IJK->IJai" [:: ("U1nold[0]",0); ("Xmmm",0)]);
  when [:: T2gt 0; T2gt 1] ("U1n[1]" +== Sc (-2) 0 (Ein "jb,Iaj,Jbi->IJai" [:: ("F.ov",0); ("U1nold[0]",0); ("U1nold[0]",0)]));
  when [:: T2gt 0; T2gt 1] ("U1n[1]" +== Sc (-2) 0 (Ein "Ijb,aj,Jbi->IJai" [:: ("g.ov",0); ("T1old",0); ("U1nold[0]",0)]));
  when [:: T2gt 0; T2gt 1] ("U1n[1]" +== Sc (-2) 0 (Ein "Ijb,bi,Jaj->IJai" [:: ("g.ov",0); ("T1old",0); ("U1nold[0]",0)]));
  when [:: T2gt 0; T2gt 1] ("U1n[1]" +== Sc (-1) 0 (Ein "jb,Iaj,Jbi->IJai" [:: ("imds.gsov",0); ("U1nold[0]",0); ("U1nold[0]",0)]));
  when [:: T2gt 0; T2gt 1] ("U1n[1]" +== Sc (-1) 0 (Ein "jb,Ibi,Jaj->IJai" [:: ("imds.gsov",0); ("U1nold[0]",0); ("U1nold[0]",0)]));
  when [:: T2gt 0; T2gt 1] ("U1n[1]" +== Sc (-1) 0 (Ein "jkib,Iaj,Jbk->IJai" [:: ("I.ooov",0); ("U1nold[0]",0); ("U1nold[0]",0)]));
  when [:: T2gt 0; T2gt 1] ("U1n[1]" +== Ein "jkib,Ibj,Jak->IJai" [:: ("I.ooov",0); ("U1nold[0]",0); ("U1nold[0]",0)]);
  when [:: T2gt 0; T2gt 1] ("U1n[1]" +== Ein "ajbc,Icj,Jbi->IJai" [:: ("I.vovv",0); ("U1nold[0]",0); ("U1nold[0]",0)]);
  when [:: T2gt 0; T2gt 1] ("U1n[1]" +== Sc (-1) 0 (Ein "ajbc,Ici,Jbj->IJai" [:: ("I.vovv",0); ("U1nold[0]",0); ("U1nold[0]",0)]));
  when [:: T2gt 0; T2gt 1] ("U1n[1]" +== Sc (-1) 0 (Ein "jkbc,aj,Ick,Jbi->IJai" [:: ("I.oovv",0); ("T1old",0); ("U1nold[0]",0); ("U1nold[0]",0)]));
  when [:: T2gt 0; T2gt 1] ("U1n[1]" +== Ein "jkbc,aj,Ici,Jbk->IJai" [:: ("I.oovv",0); ("T1old",0); ("U1nold[0]",0); ("U1nold[0]",0)]);
  when [:: T2gt 0; T2gt 1] ("U1n[1]" +== Sc (-1) 0 (Ein "jkbc,ci,Ibj,Jak->IJai" [:: ("I.oovv",0); ("T1old",0); ("U1nold[0]",0); ("U1nold[0]",0)]));
  when [:: T2gt 0; T2gt 1] ("U1n[1]" +== Ein "jkbc,ci,Iaj,Jbk->IJai" [:: ("I.oovv",0); ("T1old",0); ("U1nold[0]",0); ("U1nold[0]",0)]);
  when [:: T2gt 0; T2gt 1] ("U1n[1]" +== Ein "jkbc,cj,Iak,Jbi->IJai" [:: ("I.oovv",0); ("T1old",0); ("U1nold[0]",0); ("U1nold[0]",0)]);
  when [:: T2gt 0; T2gt 1] ("U1n[1]" +== Ein "jkbc,cj,Ibi,Jak->IJai" [:: ("I.oovv",0); ("T1old",0); ("U1nold[0]",0); ("U1nold[0]",0)]);
  when [:: T2gt 0; T2gt 1; TU2] ("tmpg" :== Add (At ("F.ov",0)) (At ("imds.gsov",0)));
  when [:: T2gt 0; T2gt 1; TU2] ("U1n[1]" +== Sc (-1) 0 (Ein "jb,IJabji->IJai" [:: ("tmpg",0); ("U2nold[1]",0)]));
  when [:: T2gt 0; T2gt 1; TU2] ("U1n[1]" +== Sc (-2) 0 (Ein "Ijb,Jabji->IJai" [:: ("g.ov",0); ("U2nold[0]",0)]));
  when [:: T2gt 0; T2gt 1; TU2] ("U1n[1]" +== Sc (1) 1 (Ein "jkib,IJabkj->IJai" [:: ("I.ooov",0); ("U2nold[1]",0)]));
  when [:: T2gt 0; T2gt 1; TU2] ("U1n[1]" +== Sc (1) 1 (Ein "ajbc,IJcbji->IJai" [:: ("I.vovv",0); ("U2nold[1]",0)]));
  when [:: T2gt 0; T2gt 1; TU2] ("U1n[1]" +== Sc (-1) 1 (Ein "jkbc,aj,IJcbki->IJai" [:: ("I.oovv",0); ("T1old",0); ("U2nold[1]",0)]));
  when [:: T2gt 0; T2gt 1; TU2] ("U1n[1]" +== Sc (-1) 0 (Ein "jkbc,ci,IJabkj->IJai" [:: ("I.oovv",0); ("T1old",0); ("U2nold[1]",0)]));
  when [:: T2gt 0; T2gt 1; TU2] ("U1n[1]" +== Sc (2) 0 (Ein "jkbc,cj,IJabki->IJai" [:: ("I.oovv",0); ("T1old",0); ("U2nold[1]",0)]));
  when [:: T2gt 0; T2gt 1; TU2] ("U1n[1]" +== Sc (-2) 0 (Ein "jkbc,Iaj,Jcbki->IJai" [:: ("I.oovv",0); ("U1nold[0]",0); ("U2nold[0]",0)]));
  when [:: T2gt 0; T2gt 1; TU2] ("U1n[1]" +== Sc (-2) 0 (Ein "jkbc,Ici,Jabkj->IJai" [:: ("I.oovv",0); ("U1nold[0]",0); ("U2nold[0]",0)]));
  when [:: T2gt 0; T2gt 1; TU2] ("U1n[1]" +== Sc (4) 0 (Ein "jkbc,Icj,Jabki->IJai" [:: ("I.oovv",0); ("U1nold[0]",0); ("U2nold[0]",0)]));
  when [:: T2gt 0; T2gt 1; TU2; T1gt 1] ("U1n[1]" +== Sc (-2) 0 (Ein "Kjb,IK,Jabji->IJai" [:: ("g.ov",0); ("Snold[1]",0); ("U2nold[0]",0)]));
  when [:: T2gt 0; T2gt 1; T1gt 1] ("U1n[1]" +== Sc (-2) 0 (Ein "Kji,IK,Jaj->IJai" [:: ("g.oo",0); ("Snold[1]",0); ("U1nold[0]",0)]));
  when [:: T2gt 0; T2gt 1; T1gt 1] ("U1n[1]" +== Sc (2) 0 (Ein "Kab,IK,Jbi->IJai" [:: ("g.vv",0); ("Snold[1]",0); ("U1nold[0]",0)]));
  when [:: T2gt 0; T2gt 1; T1gt 1] ("U1n[1]" +== Sc (-2) 0 (Ein "Kjb,aj,IK,Jbi->IJai" [:: ("g.ov",0); ("T1old",0); ("Snold[1]",0); ("U1nold[0]",0)]));
  when [:: T2gt 0; T2gt 1; T1gt 1] ("U1n[1]" +== Sc (-2) 0 (Ein "Kjb,bi,IK,Jaj->IJai" [:: ("g.ov",0); ("T1old",0); ("Snold[1]",0); ("U1nold[0]",0)]))].

(** /repo/openms/mqed/myqedcc_equations_opt.py lines 2563-3261, [qedccsd_U2n_opt].
    The results are "U2n[0]" and "U22".  Line 3259 stores "U22" as the entry (0,0)
    of an array of zeros.  The statement of line 2575 (and 2867) is modelled
    separately ([eps_vir_p_w]). *)
Definition opt_U2n : prog := [::
  when [:: T2gt 0; TU2] ("U2n[0]" :== Zero "xvvoo");
  when [:: T2gt 0; TU2] ("U2n[0]" +== Sc (-1) 0 (Ein "Ikc,ak,bcji->Iabij" [:: ("g.ov",0); ("T1old",0); ("T2old",0)]));
  when [:: T2gt 0; TU2] ("U2n[0]" +== Ein "Ikc,bk,acji->Iabij" [:: ("g.ov",0); ("T1old",0); ("T2old",0)]);
  when [:: T2gt 0; TU2] ("U2n[0]" +== Ein "Ikc,ci,bakj->Iabij" [:: ("g.ov",0); ("T1old",0); ("T2old",0)]);
  when [:: T2gt 0; TU2] ("U2n[0]" +== Sc (-1) 0 (Ein "Ikc,cj,baki->Iabij" [:: ("g.ov",0); ("T1old",0); ("T2old",0)]));
  when [:: T2gt 0; TU2] ("U2n[0]" +== Ein "Iki,bakj->Iabij" [:: ("g.oo",0); ("T2old",0)]);
  when [:: T2gt 0; TU2] ("U2n[0]" +== Sc (-1) 0 (Ein "Ikj,baki->Iabij" [:: ("g.oo",0); ("T2old",0)]));
  when [:: T2gt 0; TU2] ("U2n[0]" +== Ein "Iac,bcji->Iabij" [:: ("g.vv",0); ("T2old",0)]);
  when [:: T2gt 0; TU2] ("U2n[0]" +== Sc (-1) 0 (Ein "Ibc,acji->Iabij" [:: ("g.vv",0); ("T2old",0)]));
  when [:: T2gt 0; TU2] ("U2n[0]" +== Sc (-1) 0 (Ein "kj,Ibaki->Iabij" [:: ("F.oo",0); ("U2nold[0]",0)]));
  when [:: T2gt 0; TU2] ("U2n[0]" +== Ein "ki,Ibakj->Iabij" [:: ("F.oo",0); ("U2nold[0]",0)]);
  when [:: T2gt 0; TU2] ("U2n[0]" +== Ein "ac,Ibcji->Iabij" [:: ("F.vv",0); ("U2nold[0]",0)]);
  when [:: T2gt 0; TU2] ("U2n[0]" +== Sc (-1) 0 (Ein "bc,Iacji->Iabij" [:: ("F.vv",0); ("U2nold[0]",0)]));
  when [:: T2gt 0; TU2] ("U2n[0]" +== Ein "I,Ibaji->Iabij" [:: ("w",0); ("U2nold[0]",0)]);
  when [:: T2gt 0; TU2] ("U2n[0]" +== Sc (-1) 1 (Ein "klji,Ibalk->Iabij" [:: ("I.oooo",0); ("U2nold[0]",0)]));
  when [:: T2gt 0; TU2] ("U2n[0]" +== Ein "akci,Ibckj->Iabij" [:: ("I.vovo",0); ("U2nold[0]",0)]);
  when [:: T2gt 0; TU2] ("U2n[0]" +== Sc (-1) 0 (Ein "akcj,Ibcki->Iabij" [:: ("I.vovo",0); ("U2nold[0]",0)]));
  when [:: T2gt 0; TU2] ("U2n[0]" +== Sc (-1) 0 (Ein "bkci,Iackj->Iabij" [:: ("I.vovo",0); ("U2nold[0]",0)]));
  when [:: T2gt 0; TU2] ("U2n[0]" +== Ein "bkcj,Iacki->Iabij" [:: ("I.vovo",0); ("U2nold[0]",0)]);
  when [:: T2gt 0; TU2] ("U2n[0]" +== Sc (-1) 1 (Ein "bacd,Idcji->Iabij" [:: ("I.vvvv",0); ("U2nold[0]",0)]));
  when [:: T2gt 0; TU2] ("U2n[0]" +== Sc (-1) 0 (Ein "kc,ak,Ibcji->Iabij" [:: ("F.ov",0); ("T1old",0); ("U2nold[0]",0)]));
  when [:: T2gt 0; TU2] ("U2n[0]" +== Ein "kc,bk,Iacji->Iabij" [:: ("F.ov",0); ("T1old",0); ("U2nold[0]",0)]);
  when [:: T2gt 0; TU2] ("U2n[0]" +== Ein "kc,ci,Ibakj->Iabij" [:: ("F.ov",0); ("T1old",0); ("U2nold[0]",0)]);
  when [:: T2gt 0; TU2] ("U2n[0]" +== Sc (-1) 0 (Ein "kc,cj,Ibaki->Iabij" [:: ("F.ov",0); ("T1old",0); ("U2nold[0]",0)]));
  when [:: T2gt 0; TU2] ("U2n[0]" +== Ein "Jki,J,Ibakj->Iabij" [:: ("g.oo",0); ("Snold[0]",0); ("U2nold[0]",0)]);
  when [:: T2gt 0; TU2] ("U2n[0]" +== Sc (-1) 0 (Ein "Jkj,J,Ibaki->Iabij" [:: ("g.oo",0); ("Snold[0]",0); ("U2nold[0]",0)]));
  when [:: T2gt 0; TU2] ("U2n[0]" +== Ein "Jac,J,Ibcji->Iabij" [:: ("g.vv",0); ("Snold[0]",0); ("U2nold[0]",0)]);
  when [:: T2gt 0; TU2] ("U2n[0]" +== Sc (-1) 0 (Ein "Jbc,J,Iacji->Iabij" [:: ("g.vv",0); ("Snold[0]",0); ("U2nold[0]",0)]));
  when [:: T2gt 0; TU2] ("U2n[0]" +== Sc (-1) 0 (Ein "Jkc,Iak,Jbcji->Iabij" [:: ("g.ov",0); ("U1nold[0]",0); ("U2nold[0]",0)]));
  when [:: T2gt 0; TU2] ("U2n[0]" +== Ein "Jkc,Ibk,Jacji->Iabij" [:: ("g.ov",0); ("U1nold[0]",0); ("U2nold[0]",0)]);
  when [:: T2gt 0; TU2] ("U2n[0]" +== Ein "Jkc,Ici,Jbakj->Iabij" [:: ("g.ov",0); ("U1nold[0]",0); ("U2nold[0]",0)]);
  when [:: T2gt 0; TU2] ("U2n[0]" +== Sc (-1) 0 (Ein "Jkc,Icj,Jbaki->Iabij" [:: ("g.ov",0); ("U1nold[0]",0); ("U2nold[0]",0)]));
  when [:: T2gt 0; TU2] ("U2n[0]" +== Ein "Jkc,Ick,Jbaji->Iabij" [:: ("g.ov",0); ("U1nold[0]",0); ("U2nold[0]",0)]);
  when [:: T2gt 0; TU2] ("U2n[0]" +== Sc (-1) 0 (Ein "Jkc,Jai,Ibckj->Iabij" [:: ("g.ov",0); ("U1nold[0]",0); ("U2nold[0]",0)]));
  when [:: T2gt 0; TU2] ("U2n[0]" +== Ein "Jkc,Jaj,Ibcki->Iabij" [:: ("g.ov",0); ("U1nold[0]",0); ("U2nold[0]",0)]);
  when [:: T2gt 0; TU2] ("U2n[0]" +== Sc (-1) 0 (Ein "Jkc,Jak,Ibcji->Iabij" [:: ("g.ov",0); ("U1nold[0]",0); ("U2nold[0]",0)]));
  when [:: T2gt 0; TU2] ("U2n[0]" +== Ein "Jkc,Jbi,Iackj->Iabij" [:: ("g.ov",0); ("U1nold[0]",0); ("U2nold[0]",0)]);
  when [:: T2gt 0; TU2] ("U2n[0]" +== Sc (-1) 0 (Ein "Jkc,Jbj,Iacki->Iabij" [:: ("g.ov",0); ("U1nold[0]",0); ("U2nold[0]",0)]));
  when [:: T2gt 0; TU2] ("U2n[0]" +== Ein "Jkc,Jbk,Iacji->Iabij" [:: ("g.ov",0); ("U1nold[0]",0); ("U2nold[0]",0)]);
  when [:: T2gt 0; TU2] ("U2n[0]" +== Ein "Jkc,Jci,Ibakj->Iabij" [:: ("g.ov",0); ("U1nold[0]",0); ("U2nold[0]",0)]);
  when [:: T2gt 0; TU2] ("U2n[0]" +== Sc (-1) 0 (Ein "Jkc,Jcj,Ibaki->Iabij" [:: ("g.ov",0); ("U1nold[0]",0); ("U2nold[0]",0)]));
  when [:: T2gt 0; TU2] ("U2n[0]" +== Ein "klic,ak,Ibclj->Iabij" [:: ("I.ooov",0); ("T1old",0); ("U2nold[0]",0)]);
  when [:: T2gt 0; TU2] ("U2n[0]" +== Sc (-1) 0 (Ein "klic,bk,Iaclj->Iabij" [:: ("I.ooov",0); ("T1old",0); ("U2nold[0]",0)]));
  when [:: T2gt 0; TU2] ("U2n[0]" +== Sc (1) 1 (Ein "klic,cj,Ibalk->Iabij" [:: ("I.ooov",0); ("T1old",0); ("U2nold[0]",0)]));
  when [:: T2gt 0; TU2] ("U2n[0]" +== Sc (-1) 0 (Ein "klic,ck,Ibalj->Iabij" [:: ("I.ooov",0); ("T1old",0); ("U2nold[0]",0)]));
  when [:: T2gt 0; TU2] ("U2n[0]" +== Sc (-1) 0 (Ein "kljc,ak,Ibcli->Iabij" [:: ("I.ooov",0); ("T1old",0); ("U2nold[0]",0)]));
  when [:: T2gt 0; TU2] ("U2n[0]" +== Ein "kljc,bk,Iacli->Iabij" [:: ("I.ooov",0); ("T1old",0); ("U2nold[0]",0)]);
  when [:: T2gt 0; TU2] ("U2n[0]" +== Sc (-1) 1 (Ein "kljc,ci,Ibalk->Iabij" [:: ("I.ooov",0); ("T1old",0); ("U2nold[0]",0)]));
  when [:: T2gt 0; TU2] ("U2n[0]" +== Ein "kljc,ck,Ibali->Iabij" [:: ("I.ooov",0); ("T1old",0); ("U2nold[0]",0)]);
  when [:: T2gt 0; TU2] ("U2n[0]" +== Sc (-1) 1 (Ein "akcd,bk,Idcji->Iabij" [:: ("I.vovv",0); ("T1old",0); ("U2nold[0]",0)]));
  when [:: T2gt 0; TU2] ("U2n[0]" +== Ein "akcd,di,Ibckj->Iabij" [:: ("I.vovv",0); ("T1old",0); ("U2nold[0]",0)]);
  when [:: T2gt 0; TU2] ("U2n[0]" +== Sc (-1) 0 (Ein "akcd,dj,Ibcki->Iabij" [:: ("I.vovv",0); ("T1old",0); ("U2nold[0]",0)]));
  when [:: T2gt 0; TU2] ("U2n[0]" +== Ein "akcd,dk,Ibcji->Iabij" [:: ("I.vovv",0); ("T1old",0); ("U2nold[0]",0)]);
  when [:: T2gt 0; TU2] ("U2n[0]" +== Sc (1) 1 (Ein "bkcd,ak,Idcji->Iabij" [:: ("I.vovv",0); ("T1old",0); ("U2nold[0]",0)]));
  when [:: T2gt 0; TU2] ("U2n[0]" +== Sc (-1) 0 (Ein "bkcd,di,Iackj->Iabij" [:: ("I.vovv",0); ("T1old",0); ("U2nold[0]",0)]));
  when [:: T2gt 0; TU2] ("U2n[0]" +== Ein "bkcd,dj,Iacki->Iabij" [:: ("I.vovv",0); ("T1old",0); ("U2nold[0]",0)]);
  when [:: T2gt 0; TU2] ("U2n[0]" +== Sc (-1) 0 (Ein "bkcd,dk,Iacji->Iabij" [:: ("I.vovv",0); ("T1old",0); ("U2nold[0]",0)]));
  when [:: T2gt 0; TU2] ("U2n[0]" +== Sc (1) 1 (Ein "klcd,adji,Ibclk->Iabij" [:: ("I.oovv",0); ("T2old",0); ("U2nold[0]",0)]));
  when [:: T2gt 0; TU2] ("U2n[0]" +== Sc (-1) 0 (Ein "klcd,adki,Ibclj->Iabij" [:: ("I.oovv",0); ("T2old",0); ("U2nold[0]",0)]));
  when [:: T2gt 0; TU2] ("U2n[0]" +== Ein "klcd,adkj,Ibcli->Iabij" [:: ("I.oovv",0); ("T2old",0); ("U2nold[0]",0)]);
  when [:: T2gt 0; TU2] ("U2n[0]" +== Sc (1) 1 (Ein "klcd,adlk,Ibcji->Iabij" [:: ("I.oovv",0); ("T2old",0); ("U2nold[0]",0)]));
  when [:: T2gt 0; TU2] ("U2n[0]" +== Sc (-1) 1 (Ein "klcd,baki,Idclj->Iabij" [:: ("I.oovv",0); ("T2old",0); ("U2nold[0]",0)]));
  when [:: T2gt 0; TU2] ("U2n[0]" +== Sc (1) 1 (Ein "klcd,bakj,Idcli->Iabij" [:: ("I.oovv",0); ("T2old",0); ("U2nold[0]",0)]));
  when [:: T2gt 0; TU2] ("U2n[0]" +== Sc (1) 2 (Ein "klcd,balk,Idcji->Iabij" [:: ("I.oovv",0); ("T2old",0); ("U2nold[0]",0)]));
  when [:: T2gt 0; TU2] ("U2n[0]" +== Sc (-1) 1 (Ein "klcd,bdji,Iaclk->Iabij" [:: ("I.oovv",0); ("T2old",0); ("U2nold[0]",0)]));
  when [:: T2gt 0; TU2] ("U2n[0]" +== Ein "klcd,bdki,Iaclj->Iabij" [:: ("I.oovv",0); ("T2old",0); ("U2nold[0]",0)]);
  when [:: T2gt 0; TU2] ("U2n[0]" +== Sc (-1) 0 (Ein "klcd,bdkj,Iacli->Iabij" [:: ("I.oovv",0); ("T2old",0); ("U2nold[0]",0)]));
  when [:: T2gt 0; TU2] ("U2n[0]" +== Sc (-1) 1 (Ein "klcd,bdlk,Iacji->Iabij" [:: ("I.oovv",0); ("T2old",0); ("U2nold[0]",0)]));
  when [:: T2gt 0; TU2] ("U2n[0]" +== Sc (1) 2 (Ein "klcd,dcji,Ibalk->Iabij" [:: ("I.oovv",0); ("T2old",0); ("U2nold[0]",0)]));
  when [:: T2gt 0; TU2] ("U2n[0]" +== Sc (-1) 1 (Ein "klcd,dcki,Ibalj->Iabij" [:: ("I.oovv",0); ("T2old",0); ("U2nold[0]",0)]));
  when [:: T2gt 0; TU2] ("U2n[0]" +== Sc (1) 1 (Ein "klcd,dckj,Ibali->Iabij" [:: ("I.oovv",0); ("T2old",0); ("U2nold[0]",0)]));
  when [:: T2gt 0; TU2] ("U2n[0]" +== Sc (-1) 0 (Ein "Jkc,ak,J,Ibcji->Iabij" [:: ("g.ov",0); ("T1old",0); ("Snold[0]",0); ("U2nold[0]",0)]));
  when [:: T2gt 0; TU2] ("U2n[0]" +== Ein "Jkc,bk,J,Iacji->Iabij" [:: ("g.ov",0); ("T1old",0); ("Snold[0]",0); ("U2nold[0]",0)]);
  when [:: T2gt 0; TU2] ("U2n[0]" +== Ein "Jkc,ci,J,Ibakj->Iabij" [:: ("g.ov",0); ("T1old",0); ("Snold[0]",0); ("U2nold[0]",0)]);
  when [:: T2gt 0; TU2] ("U2n[0]" +== Sc (-1) 0 (Ein "Jkc,cj,J,Ibaki->Iabij" [:: ("g.ov",0); ("T1old",0); ("Snold[0]",0); ("U2nold[0]",0)]));
  when [:: T2gt 0; TU2] ("U2n[0]" +== Sc (-1) 0 (Ein "klcd,ak,dl,Ibcji->Iabij" [:: ("I.oovv",0); ("T1old",0); ("T1old",0); ("U2nold[0]",0)]));
  when [:: T2gt 0; TU2] ("U2n[0]" +== Sc (-1) 1 (Ein "klcd,bk,al,Idcji->Iabij" [:: ("I.oovv",0); ("T1old",0); ("T1old",0); ("U2nold[0]",0)]));
  when [:: T2gt 0; TU2] ("U2n[0]" +== Ein "klcd,bk,dl,Iacji->Iabij" [:: ("I.oovv",0); ("T1old",0); ("T1old",0); ("U2nold[0]",0)]);
  when [:: T2gt 0; TU2] ("U2n[0]" +== Sc (-1) 0 (Ein "klcd,di,ak,Ibclj->Iabij" [:: ("I.oovv",0); ("T1old",0); ("T1old",0); ("U2nold[0]",0)]));
  when [:: T2gt 0; TU2] ("U2n[0]" +== Ein "klcd,di,bk,Iaclj->Iabij" [:: ("I.oovv",0); ("T1old",0); ("T1old",0); ("U2nold[0]",0)]);
  when [:: T2gt 0; TU2] ("U2n[0]" +== Sc (-1) 1 (Ein "klcd,di,cj,Ibalk->Iabij" [:: ("I.oovv",0); ("T1old",0); ("T1old",0); ("U2nold[0]",0)]));
  when [:: T2gt 0; TU2] ("U2n[0]" +== Ein "klcd,di,ck,Ibalj->Iabij" [:: ("I.oovv",0); ("T1old",0); ("T1old",0); ("U2nold[0]",0)]);
  when [:: T2gt 0; TU2] ("U2n[0]" +== Ein "klcd,dj,ak,Ibcli->Iabij" [:: ("I.oovv",0); ("T1old",0); ("T1old",0); ("U2nold[0]",0)]);
  when [:: T2gt 0; TU2] ("U2n[0]" +== Sc (-1) 0 (Ein "klcd,dj,bk,Iacli->Iabij" [:: ("I.oovv",0); ("T1old",0); ("T1old",0); ("U2nold[0]",0)]));
  when [:: T2gt 0; TU2] ("U2n[0]" +== Sc (-1) 0 (Ein "klcd,dj,ck,Ibali->Iabij" [:: ("I.oovv",0); ("T1old",0); ("T1old",0); ("U2nold[0]",0)]));
  when [:: T2gt 0; TU2] ("U2n[0]" +== Sc (-1) 0 (Ein "klji,ak,Ibl->Iabij" [:: ("I.oooo",0); ("T1old",0); ("U1nold[0]",0)]));
  when [:: T2gt 0; TU2] ("U2n[0]" +== Ein "klji,bk,Ial->Iabij" [:: ("I.oooo",0); ("T1old",0); ("U1nold[0]",0)]);
  when [:: T2gt 0; TU2] ("U2n[0]" +== Ein "akji,Ibk->Iabij" [:: ("I.vooo",0); ("U1nold[0]",0)]);
  when [:: T2gt 0; TU2] ("U2n[0]" +== Sc (-1) 0 (Ein "bkji,Iak->Iabij" [:: ("I.vooo",0); ("U1nold[0]",0)]));
  when [:: T2gt 0; TU2] ("U2n[0]" +== Ein "baci,Icj->Iabij" [:: ("I.vvvo",0); ("U1nold[0]",0)]);
  when [:: T2gt 0; TU2] ("U2n[0]" +== Sc (-1) 0 (Ein "bacj,Ici->Iabij" [:: ("I.vvvo",0); ("U1nold[0]",0)]));
  when [:: T2gt 0; TU2] ("U2n[0]" +== Ein "kc,acji,Ibk->Iabij" [:: ("F.ov",0); ("T2old",0); ("U1nold[0]",0)]);
  when [:: T2gt 0; TU2] ("U2n[0]" +== Sc (-1) 0 (Ein "kc,baki,Icj->Iabij" [:: ("F.ov",0); ("T2old",0); ("U1nold[0]",0)]));
  when [:: T2gt 0; TU2] ("U2n[0]" +== Ein "kc,bakj,Ici->Iabij" [:: ("F.ov",0); ("T2old",0); ("U1nold[0]",0)]);
  when [:: T2gt 0; TU2] ("U2n[0]" +== Sc (-1) 0 (Ein "kc,bcji,Iak->Iabij" [:: ("F.ov",0); ("T2old",0); ("U1nold[0]",0)]));
  when [:: T2gt 0; TU2] ("U2n[0]" +== Sc (-1) 0 (Ein "Jki,Iak,Jbj->Iabij" [:: ("g.oo",0); ("U1nold[0]",0); ("U1nold[0]",0)]));
  when [:: T2gt 0; TU2] ("U2n[0]" +== Ein "Jki,Ibk,Jaj->Iabij" [:: ("g.oo",0); ("U1nold[0]",0); ("U1nold[0]",0)]);
  when [:: T2gt 0; TU2] ("U2n[0]" +== Ein "Jkj,Iak,Jbi->Iabij" [:: ("g.oo",0); ("U1nold[0]",0); ("U1nold[0]",0)]);
  when [:: T2gt 0; TU2] ("U2n[0]" +== Sc (-1) 0 (Ein "Jkj,Ibk,Jai->Iabij" [:: ("g.oo",0); ("U1nold[0]",0); ("U1nold[0]",0)]));
  when [:: T2gt 0; TU2] ("U2n[0]" +== Ein "Jac,Ici,Jbj->Iabij" [:: ("g.vv",0); ("U1nold[0]",0); ("U1nold[0]",0)]);
  when [:: T2gt 0; TU2] ("U2n[0]" +== Sc (-1) 0 (Ein "Jac,Icj,Jbi->Iabij" [:: ("g.vv",0); ("U1nold[0]",0); ("U1nold[0]",0)]));
  when [:: T2gt 0; TU2] ("U2n[0]" +== Sc (-1) 0 (Ein "Jbc,Ici,Jaj->Iabij" [:: ("g.vv",0); ("U1nold[0]",0); ("U1nold[0]",0)]));
  when [:: T2gt 0; TU2] ("U2n[0]" +== Ein "Jbc,Icj,Jai->Iabij" [:: ("g.vv",0); ("U1nold[0]",0); ("U1nold[0]",0)]);
  when [:: T2gt 0; TU2] ("U2n[0]" +== Ein "akci,bk,Icj->Iabij" [:: ("I.vovo",0); ("T1old",0); ("U1nold[0]",0)]);
  when [:: T2gt 0; TU2] ("U2n[0]" +== Ein "akci,cj,Ibk->Iabij" [:: ("I.vovo",0); ("T1old",0); ("U1nold[0]",0)]);
  when [:: T2gt 0; TU2] ("U2n[0]" +== Sc (-1) 0 (Ein "akcj,bk,Ici->Iabij" [:: ("I.vovo",0); ("T1old",0); ("U1nold[0]",0)]));
  when [:: T2gt 0; TU2] ("U2n[0]" +== Sc (-1) 0 (Ein "akcj,ci,Ibk->Iabij" [:: ("I.vovo",0); ("T1old",0); ("U1nold[0]",0)]));
  when [:: T2gt 0; TU2] ("U2n[0]" +== Sc (-1) 0 (Ein "bkci,ak,Icj->Iabij" [:: ("I.vovo",0); ("T1old",0); ("U1nold[0]",0)]));
  when [:: T2gt 0; TU2] ("U2n[0]" +== Sc (-1) 0 (Ein "bkci,cj,Iak->Iabij" [:: ("I.vovo",0); ("T1old",0); ("U1nold[0]",0)]));
  when [:: T2gt 0; TU2] ("U2n[0]" +== Ein "bkcj,ak,Ici->Iabij" [:: ("I.vovo",0); ("T1old",0); ("U1nold[0]",0)]);
  when [:: T2gt 0; TU2] ("U2n[0]" +== Ein "bkcj,ci,Iak->Iabij" [:: ("I.vovo",0); ("T1old",0); ("U1nold[0]",0)]);
  when [:: T2gt 0; TU2] ("U2n[0]" +== Ein "bacd,di,Icj->Iabij" [:: ("I.vvvv",0); ("T1old",0); ("U1nold[0]",0)]);
  when [:: T2gt 0; TU2] ("U2n[0]" +== Sc (-1) 0 (Ein "bacd,dj,Ici->Iabij" [:: ("I.vvvv",0); ("T1old",0); ("U1nold[0]",0)]));
  when [:: T2gt 0; TU2] ("U2n[0]" +== Ein "klic,ackj,Ibl->Iabij" [:: ("I.ooov",0); ("T2old",0); ("U1nold[0]",0)]);
  when [:: T2gt 0; TU2] ("U2n[0]" +== Ein "klic,bakj,Icl->Iabij" [:: ("I.ooov",0); ("T2old",0); ("U1nold[0]",0)]);
  when [:: T2gt 0; TU2] ("U2n[0]" +== Sc (1) 1 (Ein "klic,balk,Icj->Iabij" [:: ("I.ooov",0); ("T2old",0); ("U1nold[0]",0)]));
  when [:: T2gt 0; TU2] ("U2n[0]" +== Sc (-1) 0 (Ein "klic,bckj,Ial->Iabij" [:: ("I.ooov",0); ("T2old",0); ("U1nold[0]",0)]));
  when [:: T2gt 0; TU2] ("U2n[0]" +== Sc (-1) 0 (Ein "kljc,acki,Ibl->Iabij" [:: ("I.ooov",0); ("T2old",0); ("U1nold[0]",0)]));
  when [:: T2gt 0; TU2] ("U2n[0]" +== Sc (-1) 0 (Ein "kljc,baki,Icl->Iabij" [:: ("I.ooov",0); ("T2old",0); ("U1nold[0]",0)]));
  when [:: T2gt 0; TU2] ("U2n[0]" +== Sc (-1) 1 (Ein "kljc,balk,Ici->Iabij" [:: ("I.ooov",0); ("T2old",0); ("U1nold[0]",0)]));
  when [:: T2gt 0; TU2] ("U2n[0]" +== Ein "kljc,bcki,Ial->Iabij" [:: ("I.ooov",0); ("T2old",0); ("U1nold[0]",0)]);
  when [:: T2gt 0; TU2] ("U2n[0]" +== Sc (-1) 0 (Ein "akcd,bdji,Ick->Iabij" [:: ("I.vovv",0); ("T2old",0); ("U1nold[0]",0)]));
  when [:: T2gt 0; TU2] ("U2n[0]" +== Ein "akcd,bdki,Icj->Iabij" [:: ("I.vovv",0); ("T2old",0); ("U1nold[0]",0)]);
  when [:: T2gt 0; TU2] ("U2n[0]" +== Sc (-1) 0 (Ein "akcd,bdkj,Ici->Iabij" [:: ("I.vovv",0); ("T2old",0); ("U1nold[0]",0)]));
  when [:: T2gt 0; TU2] ("U2n[0]" +== Sc (-1) 1 (Ein "akcd,dcji,Ibk->Iabij" [:: ("I.vovv",0); ("T2old",0); ("U1nold[0]",0)]));
  when [:: T2gt 0; TU2] ("U2n[0]" +== Ein "bkcd,adji,Ick->Iabij" [:: ("I.vovv",0); ("T2old",0); ("U1nold[0]",0)]);
  when [:: T2gt 0; TU2] ("U2n[0]" +== Sc (-1) 0 (Ein "bkcd,adki,Icj->Iabij" [:: ("I.vovv",0); ("T2old",0); ("U1nold[0]",0)]));
  when [:: T2gt 0; TU2] ("U2n[0]" +== Ein "bkcd,adkj,Ici->Iabij" [:: ("I.vovv",0); ("T2old",0); ("U1nold[0]",0)]);
  when [:: T2gt 0; TU2] ("U2n[0]" +== Sc (1) 1 (Ein "bkcd,dcji,Iak->Iabij" [:: ("I.vovv",0); ("T2old",0); ("U1nold[0]",0)]));
  when [:: T2gt 0; TU2] ("U2n[0]" +== Sc (-1) 0 (Ein "Jkc,ak,Ici,Jbj->Iabij" [:: ("g.ov",0); ("T1old",0); ("U1nold[0]",0); ("U1nold[0]",0)]));
  when [:: T2gt 0; TU2] ("U2n[0]" +== Ein "Jkc,ak,Icj,Jbi->Iabij" [:: ("g.ov",0); ("T1old",0); ("U1nold[0]",0); ("U1nold[0]",0)]);
  when [:: T2gt 0; TU2] ("U2n[0]" +== Ein "Jkc,bk,Ici,Jaj->Iabij" [:: ("g.ov",0); ("T1old",0); ("U1nold[0]",0); ("U1nold[0]",0)]);
  when [:: T2gt 0; TU2] ("U2n[0]" +== Sc (-1) 0 (Ein "Jkc,bk,Icj,Jai->Iabij" [:: ("g.ov",0); ("T1old",0); ("U1nold[0]",0); ("U1nold[0]",0)]));
  when [:: T2gt 0; TU2] ("U2n[0]" +== Sc (-1) 0 (Ein "Jkc,ci,Iak,Jbj->Iabij" [:: ("g.ov",0); ("T1old",0); ("U1nold[0]",0); ("U1nold[0]",0)]));
  when [:: T2gt 0; TU2] ("U2n[0]" +== Ein "Jkc,ci,Ibk,Jaj->Iabij" [:: ("g.ov",0); ("T1old",0); ("U1nold[0]",0); ("U1nold[0]",0)]);
  when [:: T2gt 0; TU2] ("U2n[0]" +== Ein "Jkc,cj,Iak,Jbi->Iabij" [:: ("g.ov",0); ("T1old",0); ("U1nold[0]",0); ("U1nold[0]",0)]);
  when [:: T2gt 0; TU2] ("U2n[0]" +== Sc (-1) 0 (Ein "Jkc,cj,Ibk,Jai->Iabij" [:: ("g.ov",0); ("T1old",0); ("U1nold[0]",0); ("U1nold[0]",0)]));
  when [:: T2gt 0; TU2] ("U2n[0]" +== Ein "Jkc,acji,J,Ibk->Iabij" [:: ("g.ov",0); ("T2old",0); ("Snold[0]",0); ("U1nold[0]",0)]);
  when [:: T2gt 0; TU2] ("U2n[0]" +== Sc (-1) 0 (Ein "Jkc,baki,J,Icj->Iabij" [:: ("g.ov",0); ("T2old",0); ("Snold[0]",0); ("U1nold[0]",0)]));
  when [:: T2gt 0; TU2] ("U2n[0]" +== Ein "Jkc,bakj,J,Ici->Iabij" [:: ("g.ov",0); ("T2old",0); ("Snold[0]",0); ("U1nold[0]",0)]);
  when [:: T2gt 0; TU2] ("U2n[0]" +== Sc (-1) 0 (Ein "Jkc,bcji,J,Iak->Iabij" [:: ("g.ov",0); ("T2old",0); ("Snold[0]",0); ("U1nold[0]",0)]));
  when [:: T2gt 0; TU2] ("U2n[0]" +== Sc (-1) 0 (Ein "klic,bk,al,Icj->Iabij" [:: ("I.ooov",0); ("T1old",0); ("T1old",0); ("U1nold[0]",0)]));
  when [:: T2gt 0; TU2] ("U2n[0]" +== Ein "klic,cj,ak,Ibl->Iabij" [:: ("I.ooov",0); ("T1old",0); ("T1old",0); ("U1nold[0]",0)]);
  when [:: T2gt 0; TU2] ("U2n[0]" +== Sc (-1) 0 (Ein "klic,cj,bk,Ial->Iabij" [:: ("I.ooov",0); ("T1old",0); ("T1old",0); ("U1nold[0]",0)]));
  when [:: T2gt 0; TU2] ("U2n[0]" +== Ein "kljc,bk,al,Ici->Iabij" [:: ("I.ooov",0); ("T1old",0); ("T1old",0); ("U1nold[0]",0)]);
  when [:: T2gt 0; TU2] ("U2n[0]" +== Sc (-1) 0 (Ein "kljc,ci,ak,Ibl->Iabij" [:: ("I.ooov",0); ("T1old",0); ("T1old",0); ("U1nold[0]",0)]));
  when [:: T2gt 0; TU2] ("U2n[0]" +== Ein "kljc,ci,bk,Ial->Iabij" [:: ("I.ooov",0); ("T1old",0); ("T1old",0); ("U1nold[0]",0)]);
  when [:: T2gt 0; TU2] ("U2n[0]" +== Ein "akcd,di,bk,Icj->Iabij" [:: ("I.vovv",0); ("T1old",0); ("T1old",0); ("U1nold[0]",0)]);
  when [:: T2gt 0; TU2] ("U2n[0]" +== Ein "akcd,di,cj,Ibk->Iabij" [:: ("I.vovv",0); ("T1old",0); ("T1old",0); ("U1nold[0]",0)]);
  when [:: T2gt 0; TU2] ("U2n[0]" +== Sc (-1) 0 (Ein "akcd,dj,bk,Ici->Iabij" [:: ("I.vovv",0); ("T1old",0); ("T1old",0); ("U1nold[0]",0)]));
  when [:: T2gt 0; TU2] ("U2n[0]" +== Sc (-1) 0 (Ein "bkcd,di,ak,Icj->Iabij" [:: ("I.vovv",0); ("T1old",0); ("T1old",0); ("U1nold[0]",0)]));
  when [:: T2gt 0; TU2] ("U2n[0]" +== Sc (-1) 0 (Ein "bkcd,di,cj,Iak->Iabij" [:: ("I.vovv",0); ("T1old",0); ("T1old",0); ("U1nold[0]",0)]));
  when [:: T2gt 0; TU2] ("U2n[0]" +== Ein "bkcd,dj,ak,Ici->Iabij" [:: ("I.vovv",0); ("T1old",0); ("T1old",0); ("U1nold[0]",0)]);
  when [:: T2gt 0; TU2] ("U2n[0]" +== Ein "klcd,ak,bdji,Icl->Iabij" [:: ("I.oovv",0); ("T1old",0); ("T2old",0); ("U1nold[0]",0)]);
  when [:: T2gt 0; TU2] ("U2n[0]" +== Sc (-1) 0 (Ein "klcd,ak,bdli,Icj->Iabij" [:: ("I.oovv",0); ("T1old",0); ("T2old",0); ("U1nold[0]",0)]));
  when [:: T2gt 0; TU2] ("U2n[0]" +== Ein "klcd,ak,bdlj,Ici->Iabij" [:: ("I.oovv",0); ("T1old",0); ("T2old",0); ("U1nold[0]",0)]);
  when [:: T2gt 0; TU2] ("U2n[0]" +== Sc (1) 1 (Ein "klcd,ak,dcji,Ibl->Iabij" [:: ("I.oovv",0); ("T1old",0); ("T2old",0); ("U1nold[0]",0)]));
  when [:: T2gt 0; TU2] ("U2n[0]" +== Sc (-1) 0 (Ein "klcd,bk,adji,Icl->Iabij" [:: ("I.oovv",0); ("T1old",0); ("T2old",0); ("U1nold[0]",0)]));
  when [:: T2gt 0; TU2] ("U2n[0]" +== Ein "klcd,bk,adli,Icj->Iabij" [:: ("I.oovv",0); ("T1old",0); ("T2old",0); ("U1nold[0]",0)]);
  when [:: T2gt 0; TU2] ("U2n[0]" +== Sc (-1) 0 (Ein "klcd,bk,adlj,Ici->Iabij" [:: ("I.oovv",0); ("T1old",0); ("T2old",0); ("U1nold[0]",0)]));
  when [:: T2gt 0; TU2] ("U2n[0]" +== Sc (-1) 1 (Ein "klcd,bk,dcji,Ial->Iabij" [:: ("I.oovv",0); ("T1old",0); ("T2old",0); ("U1nold[0]",0)]));
  when [:: T2gt 0; TU2] ("U2n[0]" +== Sc (-1) 0 (Ein "klcd,di,ackj,Ibl->Iabij" [:: ("I.oovv",0); ("T1old",0); ("T2old",0); ("U1nold[0]",0)]));
  when [:: T2gt 0; TU2] ("U2n[0]" +== Sc (-1) 0 (Ein "klcd,di,bakj,Icl->Iabij" [:: ("I.oovv",0); ("T1old",0); ("T2old",0); ("U1nold[0]",0)]));
  when [:: T2gt 0; TU2] ("U2n[0]" +== Sc (-1) 1 (Ein "klcd,di,balk,Icj->Iabij" [:: ("I.oovv",0); ("T1old",0); ("T2old",0); ("U1nold[0]",0)]));
  when [:: T2gt 0; TU2] ("U2n[0]" +== Ein "klcd,di,bckj,Ial->Iabij" [:: ("I.oovv",0); ("T1old",0); ("T2old",0); ("U1nold[0]",0)]);
  when [:: T2gt 0; TU2] ("U2n[0]" +== Ein "klcd,dj,acki,Ibl->Iabij" [:: ("I.oovv",0); ("T1old",0); ("T2old",0); ("U1nold[0]",0)]);
  when [:: T2gt 0; TU2] ("U2n[0]" +== Ein "klcd,dj,baki,Icl->Iabij" [:: ("I.oovv",0); ("T1old",0); ("T2old",0); ("U1nold[0]",0)]);
  when [:: T2gt 0; TU2] ("U2n[0]" +== Sc (1) 1 (Ein "klcd,dj,balk,Ici->Iabij" [:: ("I.oovv",0); ("T1old",0); ("T2old",0); ("U1nold[0]",0)]));
  when [:: T2gt 0; TU2] ("U2n[0]" +== Sc (-1) 0 (Ein "klcd,dj,bcki,Ial->Iabij" [:: ("I.oovv",0); ("T1old",0); ("T2old",0); ("U1nold[0]",0)]));
  when [:: T2gt 0; TU2] ("U2n[0]" +== Sc (-1) 0 (Ein "klcd,dk,acji,Ibl->Iabij" [:: ("I.oovv",0); ("T1old",0); ("T2old",0); ("U1nold[0]",0)]));
  when [:: T2gt 0; TU2] ("U2n[0]" +== Ein "klcd,dk,bali,Icj->Iabij" [:: ("I.oovv",0); ("T1old",0); ("T2old",0); ("U1nold[0]",0)]);
  when [:: T2gt 0; TU2] ("U2n[0]" +== Sc (-1) 0 (Ein "klcd,dk,balj,Ici->Iabij" [:: ("I.oovv",0); ("T1old",0); ("T2old",0); ("U1nold[0]",0)]));
  when [:: T2gt 0; TU2] ("U2n[0]" +== Ein "klcd,dk,bcji,Ial->Iabij" [:: ("I.oovv",0); ("T1old",0); ("T2old",0); ("U1nold[0]",0)]);
  when [:: T2gt 0; TU2] ("U2n[0]" +== Ein "klcd,di,bk,al,Icj->Iabij" [:: ("I.oovv",0); ("T1old",0); ("T1old",0); ("T1old",0); ("U1nold[0]",0)]);
  when [:: T2gt 0; TU2] ("U2n[0]" +== Sc (-1) 0 (Ein "klcd,di,cj,ak,Ibl->Iabij" [:: ("I.oovv",0); ("T1old",0); ("T1old",0); ("T1old",0); ("U1nold[0]",0)]));
  when [:: T2gt 0; TU2] ("U2n[0]" +== Ein "klcd,di,cj,bk,Ial->Iabij" [:: ("I.oovv",0); ("T1old",0); ("T1old",0); ("T1old",0); ("U1nold[0]",0)]);
  when [:: T2gt 0; TU2] ("U2n[0]" +== Sc (-1) 0 (Ein "klcd,dj,bk,al,Ici->Iabij" [:: ("I.oovv",0); ("T1old",0); ("T1old",0); ("T1old",0); ("U1nold[0]",0)]));
  when [:: T2gt 0; TU2; T1gt 1] ("U2n[0]" +== Ein "Jki,bakj,IJ->Iabij" [:: ("g.oo",0); ("T2old",0); ("Snold[1]",0)]);
  when [:: T2gt 0; TU2; T1gt 1] ("U2n[0]" +== Sc (-1) 0 (Ein "Jkj,baki,IJ->Iabij" [:: ("g.oo",0); ("T2old",0); ("Snold[1]",0)]));
  when [:: T2gt 0; TU2; T1gt 1] ("U2n[0]" +== Ein "Jac,bcji,IJ->Iabij" [:: ("g.vv",0); ("T2old",0); ("Snold[1]",0)]);
  when [:: T2gt 0; TU2; T1gt 1] ("U2n[0]" +== Sc (-1) 0 (Ein "Jbc,acji,IJ->Iabij" [:: ("g.vv",0); ("T2old",0); ("Snold[1]",0)]));
  when [:: T2gt 0; TU2; T1gt 1] ("U2n[0]" +== Sc (-1) 0 (Ein "Jkc,ak,bcji,IJ->Iabij" [:: ("g.ov",0); ("T1old",0); ("T2old",0); ("Snold[1]",0)]));
  when [:: T2gt 0; TU2; T1gt 1] ("U2n[0]" +== Ein "Jkc,bk,acji,IJ->Iabij" [:: ("g.ov",0); ("T1old",0); ("T2old",0); ("Snold[1]",0)]);
  when [:: T2gt 0; TU2; T1gt 1] ("U2n[0]" +== Ein "Jkc,ci,bakj,IJ->Iabij" [:: ("g.ov",0); ("T1old",0); ("T2old",0); ("Snold[1]",0)]);
  when [:: T2gt 0; TU2; T1gt 1] ("U2n[0]" +== Sc (-1) 0 (Ein "Jkc,cj,baki,IJ->Iabij" [:: ("g.ov",0); ("T1old",0); ("T2old",0); ("Snold[1]",0)]));
  when [:: T2gt 0; TU2; T2gt 1] ("gvoU12_oovv" :== Ein "Jai,IJbj->Iabij" [:: ("g.vo",0); ("U1nold[1]",0)]);
  when [:: T2gt 0; TU2; T2gt 1] ("U2n[0]" +== At ("gvoU12_oovv",0));
  when [:: T2gt 0; TU2; T2gt 1] ("U2n[0]" +== Sc (-1) 0 (Tr [:: 0; 2; 1; 3; 4] (At ("gvoU12_oovv",0))));
  when [:: T2gt 0; TU2; T2gt 1] ("U2n[0]" +== Sc (-1) 0 (Tr [:: 0; 1; 2; 4; 3] (At ("gvoU12_oovv",0))));
  when [:: T2gt 0; TU2; T2gt 1] ("U2n[0]" +== Tr [:: 0; 2; 1; 4; 3] (At ("gvoU12_oovv",0)));
  when [:: T2gt 0; TU2; T2gt 1] ("gtov" :== Ein "xac,ci->xai" [:: ("g.vv",0); ("T1old",0)]);
  when [:: T2gt 0; TU2; T2gt 1] ("gtov" +== Sc (-1) 0 (Ein "xki,ak->xai" [:: ("g.oo",0); ("T1old",0)]));
  when [:: T2gt 0; TU2; T2gt 1] ("temp_abij" :== Ein "xai,xybj->xabij" [:: ("gtov",0); ("U1nold[1]",0)]);
  when [:: T2gt 0; TU2; T2gt 1] ("T2temp" :== Add (At ("T2old",0)) (Sc (-1) 0 (Ein "bi,aj->abij" [:: ("T1old",0); ("T1old",0)])));
  when [:: T2gt 0; TU2; T2gt 1] ("Wmvo" :== Ein "xkc,acik->xai" [:: ("g.ov",0); ("T2temp",0)]);
  when [:: T2gt 0; TU2; T2gt 1] ("temp_abij" +== Ein "xai,xybj->xabij" [:: ("Wmvo",0); ("U1nold[1]",0)]);
  when [:: T2gt 0; TU2; T2gt 1] ("U2n[0]" +== At ("temp_abij",0));
  when [:: T2gt 0; TU2; T2gt 1] ("U2n[0]" +== Sc (-1) 0 (Tr [:: 0; 2; 1; 3; 4] (At ("temp_abij",0))));
  when [:: T2gt 0; TU2; T2gt 1] ("U2n[0]" +== Sc (-1) 0 (Tr [:: 0; 1; 2; 4; 3] (At ("temp_abij",0))));
  when [:: T2gt 0; TU2; T2gt 1] ("U2n[0]" +== Tr [:: 0; 2; 1; 4; 3] (At ("temp_abij",0)));
  when [:: T2gt 0; TU2; T2gt 1] ("U2n[0]" +== Ein "Jkc,acji,IJbk->Iabij" [:: ("g.ov",0); ("T2old",0); ("U1nold[1]",0)]);
  when [:: T2gt 0; TU2; T2gt 1] ("U2n[0]" +== Sc (-1) 0 (Ein "Jkc,baki,IJcj->Iabij" [:: ("g.ov",0); ("T2old",0); ("U1nold[1]",0)]));
  when [:: T2gt 0; TU2; T2gt 1] ("U2n[0]" +== Ein "Jkc,bakj,IJci->Iabij" [:: ("g.ov",0); ("T2old",0); ("U1nold[1]",0)]);
  when [:: T2gt 0; TU2; T2gt 1] ("U2n[0]" +== Sc (-1) 0 (Ein "Jkc,bcji,IJak->Iabij" [:: ("g.ov",0); ("T2old",0); ("U1nold[1]",0)]));
  when [:: T2gt 0; TU2; T2gt 1] ("U2n[0]" +== Ein "Jki,IJbakj->Iabij" [:: ("g.oo",0); ("U2nold[1]",0)]);
  when [:: T2gt 0; TU2; T2gt 1] ("U2n[0]" +== Sc (-1) 0 (Ein "Jkj,IJbaki->Iabij" [:: ("g.oo",0); ("U2nold[1]",0)]));
  when [:: T2gt 0; TU2; T2gt 1] ("U2n[0]" +== Ein "Jac,IJbcji->Iabij" [:: ("g.vv",0); ("U2nold[1]",0)]);
  when [:: T2gt 0; TU2; T2gt 1] ("U2n[0]" +== Sc (-1) 0 (Ein "Jbc,IJacji->Iabij" [:: ("g.vv",0); ("U2nold[1]",0)]));
  when [:: T2gt 0; TU2; T2gt 1] ("U2n[0]" +== Sc (-1) 0 (Ein "Jkc,ak,IJbcji->Iabij" [:: ("g.ov",0); ("T1old",0); ("U2nold[1]",0)]));
  when [:: T2gt 0; TU2; T2gt 1] ("U2n[0]" +== Ein "Jkc,bk,IJacji->Iabij" [:: ("g.ov",0); ("T1old",0); ("U2nold[1]",0)]);
  when [:: T2gt 0; TU2; T2gt 1] ("U2n[0]" +== Ein "Jkc,ci,IJbakj->Iabij" [:: ("g.ov",0); ("T1old",0); ("U2nold[1]",0)]);
  when [:: T2gt 0; TU2; T2gt 1] ("U2n[0]" +== Sc (-1) 0 (Ein "Jkc,cj,IJbaki->Iabij" [:: ("g.ov",0); ("T1old",0); ("U2nold[1]",0)]));
  when [:: T2gt 0; TU2; T2gt 1] ("U2n[0]" +== Ein "Jkc,ck,IJbaji->Iabij" [:: ("g.ov",0); ("T1old",0); ("U2nold[1]",0)]);
  when [:: T2gt 0; TU2; T2gt 1] ("U22" :== Zero "vvoo");
  when [:: T2gt 0; TU2; T2gt 1] ("U11old" :== At ("U1nold[0]",1));
  when [:: T2gt 0; TU2; T2gt 1] ("U12old" :== At ("U1nold[1]",2));
  when [:: T2gt 0; TU2; T2gt 1] ("U21old" :== At ("U2nold[0]",1));
  when [:: T2gt 0; TU2; T2gt 1] ("U22old" :== At ("U2nold[1]",2));
  when [:: T2gt 0; TU2; T2gt 1] ("S1old" :== At ("Snold[0]",1));
  when [:: T2gt 0; TU2; T2gt 1; T1gt 1] ("S2old" :== At ("Snold[1]",2));
  when [:: T2gt 0; TU2; T2gt 1] ("U22" +== Ein "ki,bakj->abij" [:: ("F.oo",0); ("U22old",0)]);
  when [:: T2gt 0; TU2; T2gt 1] ("U22" +== Sc (-1) 0 (Ein "kj,baki->abij" [:: ("F.oo",0); ("U22old",0)]));
  when [:: T2gt 0; TU2; T2gt 1] ("U22" +== Sc (-1) 0 (Ein "bc,acji->abij" [:: ("F.vv",0); ("U22old",0)]));
  when [:: T2gt 0; TU2; T2gt 1] ("U22" +== Ein "ac,bcji->abij" [:: ("F.vv",0); ("U22old",0)]);
  when [:: T2gt 0; TU2; T2gt 1] ("U22" +== Sc (-1) 0 (Ein "bkji,ak->abij" [:: ("I.vooo",0); ("U12old",0)]));
  when [:: T2gt 0; TU2; T2gt 1] ("U22" +== Ein "akji,bk->abij" [:: ("I.vooo",0); ("U12old",0)]);
  when [:: T2gt 0; TU2; T2gt 1] ("U22" +== Ein "baci,cj->abij" [:: ("I.vvvo",0); ("U12old",0)]);
  when [:: T2gt 0; TU2; T2gt 1] ("U22" +== Sc (-1) 0 (Ein "bacj,ci->abij" [:: ("I.vvvo",0); ("U12old",0)]));
  when [:: T2gt 0; TU2; T2gt 1] ("U22" +== Sc (2) 0 (Ein "J,IJbaji->abij" [:: ("w",0); ("U2nold[1]",0)]));
  when [:: T2gt 0; TU2; T2gt 1] ("U22" +== Ein "ki,bakj->abij" [:: ("g.oo",1); ("U21old",0)]);
  when [:: T2gt 0; TU2; T2gt 1] ("U22" +== Sc (-1) 0 (Ein "kj,baki->abij" [:: ("g.oo",1); ("U21old",0)]));
  when [:: T2gt 0; TU2; T2gt 1] ("U22" +== Ein "ki,bakj->abij" [:: ("g.oo",1); ("U21old",0)]);
  when [:: T2gt 0; TU2; T2gt 1] ("U22" +== Sc (-1) 0 (Ein "kj,baki->abij" [:: ("g.oo",1); ("U21old",0)]));
  when [:: T2gt 0; TU2; T2gt 1] ("U22" +== Sc (-1) 0 (Ein "bc,acji->abij" [:: ("g.vv",1); ("U21old",0)]));
  when [:: T2gt 0; TU2; T2gt 1] ("U22" +== Ein "ac,bcji->abij" [:: ("g.vv",1); ("U21old",0)]);
  when [:: T2gt 0; TU2; T2gt 1] ("U22" +== Sc (-1) 0 (Ein "bc,acji->abij" [:: ("g.vv",1); ("U21old",0)]));
  when [:: T2gt 0; TU2; T2gt 1] ("U22" +== Ein "ac,bcji->abij" [:: ("g.vv",1); ("U21old",0)]);
  when [:: T2gt 0; TU2; T2gt 1] ("U22" +== Sc (-1) 1 (Ein "klji,balk->abij" [:: ("I.oooo",0); ("U22old",0)]));
  when [:: T2gt 0; TU2; T2gt 1] ("U22" +== Sc (-1) 0 (Ein "bkci,ackj->abij" [:: ("I.vovo",0); ("U22old",0)]));
  when [:: T2gt 0; TU2; T2gt 1] ("U22" +== Ein "akci,bckj->abij" [:: ("I.vovo",0); ("U22old",0)]);
  when [:: T2gt 0; TU2; T2gt 1] ("U22" +== Ein "bkcj,acki->abij" [:: ("I.vovo",0); ("U22old",0)]);
  when [:: T2gt 0; TU2; T2gt 1] ("U22" +== Sc (-1) 0 (Ein "akcj,bcki->abij" [:: ("I.vovo",0); ("U22old",0)]));
  when [:: T2gt 0; TU2; T2gt 1] ("U22" +== Sc (-1) 1 (Ein "bacd,dcji->abij" [:: ("I.vvvv",0); ("U22old",0)]));
  when [:: T2gt 0; TU2; T2gt 1] ("U22" +== Ein "kc,ci,bakj->abij" [:: ("F.ov",0); ("T1old",0); ("U22old",0)]);
  when [:: T2gt 0; TU2; T2gt 1] ("U22" +== Sc (-1) 0 (Ein "kc,cj,baki->abij" [:: ("F.ov",0); ("T1old",0); ("U22old",0)]));
  when [:: T2gt 0; TU2; T2gt 1] ("U22" +== Ein "kc,bk,acji->abij" [:: ("F.ov",0); ("T1old",0); ("U22old",0)]);
  when [:: T2gt 0; TU2; T2gt 1] ("U22" +== Sc (-1) 0 (Ein "kc,ak,bcji->abij" [:: ("F.ov",0); ("T1old",0); ("U22old",0)]));
  when [:: T2gt 0; TU2; T2gt 1] ("U22" +== Sc (-1) 0 (Ein "kc,bcji,ak->abij" [:: ("F.ov",0); ("T2old",0); ("U12old",0)]));
  when [:: T2gt 0; TU2; T2gt 1] ("U22" +== Ein "kc,acji,bk->abij" [:: ("F.ov",0); ("T2old",0); ("U12old",0)]);
  when [:: T2gt 0; TU2; T2gt 1] ("U22" +== Sc (-1) 0 (Ein "kc,baki,cj->abij" [:: ("F.ov",0); ("T2old",0); ("U12old",0)]));
  when [:: T2gt 0; TU2; T2gt 1] ("U22" +== Ein "kc,bakj,ci->abij" [:: ("F.ov",0); ("T2old",0); ("U12old",0)]);
  when [:: T2gt 0; TU2; T2gt 1] ("U22" +== Ein "klji,bk,al->abij" [:: ("I.oooo",0); ("T1old",0); ("U12old",0)]);
  when [:: T2gt 0; TU2; T2gt 1] ("U22" +== Sc (-1) 0 (Ein "klji,ak,bl->abij" [:: ("I.oooo",0); ("T1old",0); ("U12old",0)]));
  when [:: T2gt 0; TU2; T2gt 1] ("U22" +== Sc (-1) 0 (Ein "bkci,cj,ak->abij" [:: ("I.vovo",0); ("T1old",0); ("U12old",0)]));
  when [:: T2gt 0; TU2; T2gt 1] ("U22" +== Ein "akci,cj,bk->abij" [:: ("I.vovo",0); ("T1old",0); ("U12old",0)]);
  when [:: T2gt 0; TU2; T2gt 1] ("U22" +== Sc (-1) 0 (Ein "bkci,ak,cj->abij" [:: ("I.vovo",0); ("T1old",0); ("U12old",0)]));
  when [:: T2gt 0; TU2; T2gt 1] ("U22" +== Ein "akci,bk,cj->abij" [:: ("I.vovo",0); ("T1old",0); ("U12old",0)]);
  when [:: T2gt 0; TU2; T2gt 1] ("U22" +== Ein "bkcj,ci,ak->abij" [:: ("I.vovo",0); ("T1old",0); ("U12old",0)]);
  when [:: T2gt 0; TU2; T2gt 1] ("U22" +== Sc (-1) 0 (Ein "akcj,ci,bk->abij" [:: ("I.vovo",0); ("T1old",0); ("U12old",0)]));
  when [:: T2gt 0; TU2; T2gt 1] ("U22" +== Ein "bkcj,ak,ci->abij" [:: ("I.vovo",0); ("T1old",0); ("U12old",0)]);
  when [:: T2gt 0; TU2; T2gt 1] ("U22" +== Sc (-1) 0 (Ein "akcj,bk,ci->abij" [:: ("I.vovo",0); ("T1old",0); ("U12old",0)]));
  when [:: T2gt 0; TU2; T2gt 1] ("U22" +== Ein "bacd,di,cj->abij" [:: ("I.vvvv",0); ("T1old",0); ("U12old",0)]);
  when [:: T2gt 0; TU2; T2gt 1] ("U22" +== Sc (-1) 0 (Ein "bacd,dj,ci->abij" [:: ("I.vvvv",0); ("T1old",0); ("U12old",0)]));
  when [:: T2gt 0; TU2; T2gt 1] ("U22" +== Mul ("S1old",0) (Ein "ki,bakj->abij" [:: ("g.oo",1); ("U22old",0)]));
  when [:: T2gt 0; TU2; T2gt 1] ("U22" +== Sc (-1) 0 (Mul ("S1old",0) (Ein "kj,baki->abij" [:: ("g.oo",1); ("U22old",0)])));
  when [:: T2gt 0; TU2; T2gt 1; T1gt 1] ("U22" +== Mul ("S2old",0) (Ein "ki,bakj->abij" [:: ("g.oo",1); ("U21old",0)]));
  when [:: T2gt 0; TU2; T2gt 1; T1gt 1] ("U22" +== Sc (-1) 0 (Mul ("S2old",0) (Ein "kj,baki->abij" [:: ("g.oo",1); ("U21old",0)])));
  when [:: T2gt 0; TU2; T2gt 1; T1gt 1] ("U22" +== Mul ("S2old",0) (Ein "ki,bakj->abij" [:: ("g.oo",1); ("U21old",0)]));
  when [:: T2gt 0; TU2; T2gt 1; T1gt 1] ("U22" +== Sc (-1) 0 (Mul ("S2old",0) (Ein "kj,baki->abij" [:: ("g.oo",1); ("U21old",0)])));
  when [:: T2gt 0; TU2; T2gt 1; T1gt 1] ("U22" +== Sc (-1) 0 (Mul ("S2old",0) (Ein "bc,acji->abij" [:: ("g.vv",1); ("U21old",0)])));
  when [:: T2gt 0; TU2; T2gt 1; T1gt 1] ("U22" +== Mul ("S2old",0) (Ein "ac,bcji->abij" [:: ("g.vv",1); ("U21old",0)]));
  when [:: T2gt 0; TU2; T2gt 1; T1gt 1] ("U22" +== Sc (-1) 0 (Mul ("S2old",0) (Ein "bc,acji->abij" [:: ("g.vv",1); ("U21old",0)])));
  when [:: T2gt 0; TU2; T2gt 1; T1gt 1] ("U22" +== Mul ("S2old",0) (Ein "ac,bcji->abij" [:: ("g.vv",1); ("U21old",0)]));
  when [:: T2gt 0; TU2; T2gt 1; T1gt 1] ("U22" +== Mul ("S2old",0) (Ein "kc,ci,bakj->abij" [:: ("g.ov",1); ("T1old",0); ("U21old",0)]));
  when [:: T2gt 0; TU2; T2gt 1; T1gt 1] ("U22" +== Sc (-1) 0 (Mul ("S2old",0) (Ein "kc,cj,baki->abij" [:: ("g.ov",1); ("T1old",0); ("U21old",0)])));
  when [:: T2gt 0; TU2; T2gt 1; T1gt 1] ("U22" +== Mul ("S2old",0) (Ein "kc,bk,acji->abij" [:: ("g.ov",1); ("T1old",0); ("U21old",0)]));
  when [:: T2gt 0; TU2; T2gt 1; T1gt 1] ("U22" +== Sc (-1) 0 (Mul ("S2old",0) (Ein "kc,ak,bcji->abij" [:: ("g.ov",1); ("T1old",0); ("U21old",0)])));
  when [:: T2gt 0; TU2; T2gt 1; T1gt 1] ("U22" +== Mul ("S2old",0) (Ein "kc,ci,bakj->abij" [:: ("g.ov",1); ("T1old",0); ("U21old",0)]));
  when [:: T2gt 0; TU2; T2gt 1; T1gt 1] ("U22" +== Sc (-1) 0 (Mul ("S2old",0) (Ein "kc,cj,baki->abij" [:: ("g.ov",1); ("T1old",0); ("U21old",0)])));
  when [:: T2gt 0; TU2; T2gt 1; T1gt 1] ("U22" +== Mul ("S2old",0) (Ein "kc,bk,acji->abij" [:: ("g.ov",1); ("T1old",0); ("U21old",0)]));
  when [:: T2gt 0; TU2; T2gt 1; T1gt 1] ("U22" +== Sc (-1) 0 (Mul ("S2old",0) (Ein "kc,ak,bcji->abij" [:: ("g.ov",1); ("T1old",0); ("U21old",0)])));
  when [:: T2gt 0; TU2; T2gt 1; T1gt 1] ("U22" +== Sc (-1) 0 (Mul ("S2old",0) (Ein "kc,bcji,ak->abij" [:: ("g.ov",1); ("T2old",0); ("U11old",0)])));
  when [:: T2gt 0; TU2; T2gt 1; T1gt 1] ("U22" +== Mul ("S2old",0) (Ein "kc,acji,bk->abij" [:: ("g.ov",1); ("T2old",0); ("U11old",0)]));
  when [:: T2gt 0; TU2; T2gt 1; T1gt 1] ("U22" +== Sc (-1) 0 (Mul ("S2old",0) (Ein "kc,baki,cj->abij" [:: ("g.ov",1); ("T2old",0); ("U11old",0)])));
  when [:: T2gt 0; TU2; T2gt 1; T1gt 1] ("U22" +== Mul ("S2old",0) (Ein "kc,bakj,ci->abij" [:: ("g.ov",1); ("T2old",0); ("U11old",0)]));
  when [:: T2gt 0; TU2; T2gt 1; T1gt 1] ("U22" +== Sc (-1) 0 (Mul ("S2old",0) (Ein "kc,bcji,ak->abij" [:: ("g.ov",1); ("T2old",0); ("U11old",0)])));
  when [:: T2gt 0; TU2; T2gt 1; T1gt 1] ("U22" +== Mul ("S2old",0) (Ein "kc,acji,bk->abij" [:: ("g.ov",1); ("T2old",0); ("U11old",0)]));
  when [:: T2gt 0; TU2; T2gt 1; T1gt 1] ("U22" +== Sc (-1) 0 (Mul ("S2old",0) (Ein "kc,baki,cj->abij" [:: ("g.ov",1); ("T2old",0); ("U11old",0)])));
  when [:: T2gt 0; TU2; T2gt 1; T1gt 1] ("U22" +== Mul ("S2old",0) (Ein "kc,bakj,ci->abij" [:: ("g.ov",1); ("T2old",0); ("U11old",0)]));
  when [:: T2gt 0; TU2; T2gt 1] ("U22" +== Ein "kc,ci,bakj->abij" [:: ("g.ov",1); ("T1old",0); ("U21old",0)]);
  when [:: T2gt 0; TU2; T2gt 1] ("U22" +== Sc (-1) 0 (Ein "kc,cj,baki->abij" [:: ("g.ov",1); ("T1old",0); ("U21old",0)]));
  when [:: T2gt 0; TU2; T2gt 1] ("U22" +== Ein "kc,bk,acji->abij" [:: ("g.ov",1); ("T1old",0); ("U21old",0)]);
  when [:: T2gt 0; TU2; T2gt 1] ("U22" +== Sc (-1) 0 (Ein "kc,ak,bcji->abij" [:: ("g.ov",1); ("T1old",0); ("U21old",0)]));
  when [:: T2gt 0; TU2; T2gt 1] ("U22" +== Ein "kc,ci,bakj->abij" [:: ("g.ov",1); ("T1old",0); ("U21old",0)]);
  when [:: T2gt 0; TU2; T2gt 1] ("U22" +== Sc (-1) 0 (Ein "kc,cj,baki->abij" [:: ("g.ov",1); ("T1old",0); ("U21old",0)]));
  when [:: T2gt 0; TU2; T2gt 1] ("U22" +== Ein "kc,bk,acji->abij" [:: ("g.ov",1); ("T1old",0); ("U21old",0)]);
  when [:: T2gt 0; TU2; T2gt 1] ("U22" +== Sc (-1) 0 (Ein "kc,ak,bcji->abij" [:: ("g.ov",1); ("T1old",0); ("U21old",0)]));
  when [:: T2gt 0; TU2; T2gt 1] ("U22" +== Sc (-1) 0 (Ein "kc,bcji,ak->abij" [:: ("g.ov",1); ("T2old",0); ("U11old",0)]));
  when [:: T2gt 0; TU2; T2gt 1] ("U22" +== Ein "kc,acji,bk->abij" [:: ("g.ov",1); ("T2old",0); ("U11old",0)]);
  when [:: T2gt 0; TU2; T2gt 1] ("U22" +== Sc (-1) 0 (Ein "kc,baki,cj->abij" [:: ("g.ov",1); ("T2old",0); ("U11old",0)]));
  when [:: T2gt 0; TU2; T2gt 1] ("U22" +== Ein "kc,bakj,ci->abij" [:: ("g.ov",1); ("T2old",0); ("U11old",0)]);
  when [:: T2gt 0; TU2; T2gt 1] ("U22" +== Sc (-1) 0 (Ein "kc,bcji,ak->abij" [:: ("g.ov",1); ("T2old",0); ("U11old",0)]));
  when [:: T2gt 0; TU2; T2gt 1] ("U22" +== Ein "kc,acji,bk->abij" [:: ("g.ov",1); ("T2old",0); ("U11old",0)]);
  when [:: T2gt 0; TU2; T2gt 1] ("U22" +== Sc (-1) 0 (Ein "kc,baki,cj->abij" [:: ("g.ov",1); ("T2old",0); ("U11old",0)]));
  when [:: T2gt 0; TU2; T2gt 1] ("U22" +== Ein "kc,bakj,ci->abij" [:: ("g.ov",1); ("T2old",0); ("U11old",0)]);
  when [:: T2gt 0; TU2; T2gt 1] ("U22" +== Sc (-1) 0 (Mul ("S1old",0) (Ein "bc,acji->abij" [:: ("g.vv",1); ("U22old",0)])));
  when [:: T2gt 0; TU2; T2gt 1] ("U22" +== Mul ("S1old",0) (Ein "ac,bcji->abij" [:: ("g.vv",1); ("U22old",0)]));
  when [:: T2gt 0; TU2; T2gt 1] ("U22" +== Sc (1) 1 (Ein "klic,cj,balk->abij" [:: ("I.ooov",0); ("T1old",0); ("U22old",0)]));
  when [:: T2gt 0; TU2; T2gt 1] ("U22" +== Sc (-1) 0 (Ein "klic,bk,aclj->abij" [:: ("I.ooov",0); ("T1old",0); ("U22old",0)]));
  when [:: T2gt 0; TU2; T2gt 1] ("U22" +== Ein "klic,ak,bclj->abij" [:: ("I.ooov",0); ("T1old",0); ("U22old",0)]);
  when [:: T2gt 0; TU2; T2gt 1] ("U22" +== Sc (-1) 0 (Ein "klic,ck,balj->abij" [:: ("I.ooov",0); ("T1old",0); ("U22old",0)]));
  when [:: T2gt 0; TU2; T2gt 1] ("U22" +== Sc (-1) 1 (Ein "kljc,ci,balk->abij" [:: ("I.ooov",0); ("T1old",0); ("U22old",0)]));
  when [:: T2gt 0; TU2; T2gt 1] ("U22" +== Ein "kljc,bk,acli->abij" [:: ("I.ooov",0); ("T1old",0); ("U22old",0)]);
  when [:: T2gt 0; TU2; T2gt 1] ("U22" +== Sc (-1) 0 (Ein "kljc,ak,bcli->abij" [:: ("I.ooov",0); ("T1old",0); ("U22old",0)]));
  when [:: T2gt 0; TU2; T2gt 1] ("U22" +== Ein "kljc,ck,bali->abij" [:: ("I.ooov",0); ("T1old",0); ("U22old",0)]);
  when [:: T2gt 0; TU2; T2gt 1] ("U22" +== Ein "klic,bakj,cl->abij" [:: ("I.ooov",0); ("T2old",0); ("U12old",0)]);
  when [:: T2gt 0; TU2; T2gt 1] ("U22" +== Sc (-1) 0 (Ein "klic,bckj,al->abij" [:: ("I.ooov",0); ("T2old",0); ("U12old",0)]));
  when [:: T2gt 0; TU2; T2gt 1] ("U22" +== Ein "klic,ackj,bl->abij" [:: ("I.ooov",0); ("T2old",0); ("U12old",0)]);
  when [:: T2gt 0; TU2; T2gt 1] ("U22" +== Sc (1) 1 (Ein "klic,balk,cj->abij" [:: ("I.ooov",0); ("T2old",0); ("U12old",0)]));
  when [:: T2gt 0; TU2; T2gt 1] ("U22" +== Sc (-1) 0 (Ein "kljc,baki,cl->abij" [:: ("I.ooov",0); ("T2old",0); ("U12old",0)]));
  when [:: T2gt 0; TU2; T2gt 1] ("U22" +== Ein "kljc,bcki,al->abij" [:: ("I.ooov",0); ("T2old",0); ("U12old",0)]);
  when [:: T2gt 0; TU2; T2gt 1] ("U22" +== Sc (-1) 0 (Ein "kljc,acki,bl->abij" [:: ("I.ooov",0); ("T2old",0); ("U12old",0)]));
  when [:: T2gt 0; TU2; T2gt 1] ("U22" +== Sc (-1) 1 (Ein "kljc,balk,ci->abij" [:: ("I.ooov",0); ("T2old",0); ("U12old",0)]));
  when [:: T2gt 0; TU2; T2gt 1] ("U22" +== Sc (-1) 0 (Ein "bkcd,di,ackj->abij" [:: ("I.vovv",0); ("T1old",0); ("U22old",0)]));
  when [:: T2gt 0; TU2; T2gt 1] ("U22" +== Ein "akcd,di,bckj->abij" [:: ("I.vovv",0); ("T1old",0); ("U22old",0)]);
  when [:: T2gt 0; TU2; T2gt 1] ("U22" +== Ein "bkcd,dj,acki->abij" [:: ("I.vovv",0); ("T1old",0); ("U22old",0)]);
  when [:: T2gt 0; TU2; T2gt 1] ("U22" +== Sc (-1) 0 (Ein "akcd,dj,bcki->abij" [:: ("I.vovv",0); ("T1old",0); ("U22old",0)]));
  when [:: T2gt 0; TU2; T2gt 1] ("U22" +== Sc (1) 1 (Ein "bkcd,ak,dcji->abij" [:: ("I.vovv",0); ("T1old",0); ("U22old",0)]));
  when [:: T2gt 0; TU2; T2gt 1] ("U22" +== Sc (-1) 0 (Ein "bkcd,dk,acji->abij" [:: ("I.vovv",0); ("T1old",0); ("U22old",0)]));
  when [:: T2gt 0; TU2; T2gt 1] ("U22" +== Sc (-1) 1 (Ein "akcd,bk,dcji->abij" [:: ("I.vovv",0); ("T1old",0); ("U22old",0)]));
  when [:: T2gt 0; TU2; T2gt 1] ("U22" +== Ein "akcd,dk,bcji->abij" [:: ("I.vovv",0); ("T1old",0); ("U22old",0)]);
  when [:: T2gt 0; TU2; T2gt 1] ("U22" +== Ein "bkcd,adji,ck->abij" [:: ("I.vovv",0); ("T2old",0); ("U12old",0)]);
  when [:: T2gt 0; TU2; T2gt 1] ("U22" +== Sc (1) 1 (Ein "bkcd,dcji,ak->abij" [:: ("I.vovv",0); ("T2old",0); ("U12old",0)]));
  when [:: T2gt 0; TU2; T2gt 1] ("U22" +== Sc (-1) 0 (Ein "akcd,bdji,ck->abij" [:: ("I.vovv",0); ("T2old",0); ("U12old",0)]));
  when [:: T2gt 0; TU2; T2gt 1] ("U22" +== Sc (-1) 1 (Ein "akcd,dcji,bk->abij" [:: ("I.vovv",0); ("T2old",0); ("U12old",0)]));
  when [:: T2gt 0; TU2; T2gt 1] ("U22" +== Sc (-1) 0 (Ein "bkcd,adki,cj->abij" [:: ("I.vovv",0); ("T2old",0); ("U12old",0)]));
  when [:: T2gt 0; TU2; T2gt 1] ("U22" +== Ein "akcd,bdki,cj->abij" [:: ("I.vovv",0); ("T2old",0); ("U12old",0)]);
  when [:: T2gt 0; TU2; T2gt 1] ("U22" +== Ein "bkcd,adkj,ci->abij" [:: ("I.vovv",0); ("T2old",0); ("U12old",0)]);
  when [:: T2gt 0; TU2; T2gt 1] ("U22" +== Sc (-1) 0 (Ein "akcd,bdkj,ci->abij" [:: ("I.vovv",0); ("T2old",0); ("U12old",0)]));
  when [:: T2gt 0; TU2; T2gt 1] ("U22" +== Sc (-1) 1 (Ein "klcd,bdji,aclk->abij" [:: ("I.oovv",0); ("T2old",0); ("U22old",0)]));
  when [:: T2gt 0; TU2; T2gt 1] ("U22" +== Sc (1) 1 (Ein "klcd,adji,bclk->abij" [:: ("I.oovv",0); ("T2old",0); ("U22old",0)]));
  when [:: T2gt 0; TU2; T2gt 1] ("U22" +== Sc (1) 2 (Ein "klcd,dcji,balk->abij" [:: ("I.oovv",0); ("T2old",0); ("U22old",0)]));
  when [:: T2gt 0; TU2; T2gt 1] ("U22" +== Sc (-1) 1 (Ein "klcd,baki,dclj->abij" [:: ("I.oovv",0); ("T2old",0); ("U22old",0)]));
  when [:: T2gt 0; TU2; T2gt 1] ("U22" +== Ein "klcd,bdki,aclj->abij" [:: ("I.oovv",0); ("T2old",0); ("U22old",0)]);
  when [:: T2gt 0; TU2; T2gt 1] ("U22" +== Sc (-1) 0 (Ein "klcd,adki,bclj->abij" [:: ("I.oovv",0); ("T2old",0); ("U22old",0)]));
  when [:: T2gt 0; TU2; T2gt 1] ("U22" +== Sc (-1) 1 (Ein "klcd,dcki,balj->abij" [:: ("I.oovv",0); ("T2old",0); ("U22old",0)]));
  when [:: T2gt 0; TU2; T2gt 1] ("U22" +== Sc (1) 1 (Ein "klcd,bakj,dcli->abij" [:: ("I.oovv",0); ("T2old",0); ("U22old",0)]));
  when [:: T2gt 0; TU2; T2gt 1] ("U22" +== Sc (-1) 0 (Ein "klcd,bdkj,acli->abij" [:: ("I.oovv",0); ("T2old",0); ("U22old",0)]));
  when [:: T2gt 0; TU2; T2gt 1] ("U22" +== Ein "klcd,adkj,bcli->abij" [:: ("I.oovv",0); ("T2old",0); ("U22old",0)]);
  when [:: T2gt 0; TU2; T2gt 1] ("U22" +== Sc (1) 1 (Ein "klcd,dckj,bali->abij" [:: ("I.oovv",0); ("T2old",0); ("U22old",0)]));
  when [:: T2gt 0; TU2; T2gt 1] ("U22" +== Sc (1) 2 (Ein "klcd,balk,dcji->abij" [:: ("I.oovv",0); ("T2old",0); ("U22old",0)]));
  when [:: T2gt 0; TU2; T2gt 1] ("U22" +== Sc (-1) 1 (Ein "klcd,bdlk,acji->abij" [:: ("I.oovv",0); ("T2old",0); ("U22old",0)]));
  when [:: T2gt 0; TU2; T2gt 1] ("U22" +== Sc (1) 1 (Ein "klcd,adlk,bcji->abij" [:: ("I.oovv",0); ("T2old",0); ("U22old",0)]));
  when [:: T2gt 0; TU2; T2gt 1] ("U22" +== Sc (2) 0 (Ein "kc,ci,bakj->abij" [:: ("F.ov",0); ("U11old",0); ("U21old",0)]));
  when [:: T2gt 0; TU2; T2gt 1] ("U22" +== Sc (-2) 0 (Ein "kc,cj,baki->abij" [:: ("F.ov",0); ("U11old",0); ("U21old",0)]));
  when [:: T2gt 0; TU2; T2gt 1] ("U22" +== Sc (2) 0 (Ein "kc,bk,acji->abij" [:: ("F.ov",0); ("U11old",0); ("U21old",0)]));
  when [:: T2gt 0; TU2; T2gt 1] ("U22" +== Sc (-2) 0 (Ein "kc,ak,bcji->abij" [:: ("F.ov",0); ("U11old",0); ("U21old",0)]));
  when [:: T2gt 0; TU2; T2gt 1] ("U22" +== Sc (2) 0 (Ein "klji,bk,al->abij" [:: ("I.oooo",0); ("U11old",0); ("U11old",0)]));
  when [:: T2gt 0; TU2; T2gt 1] ("U22" +== Sc (-2) 0 (Ein "bkci,cj,ak->abij" [:: ("I.vovo",0); ("U11old",0); ("U11old",0)]));
  when [:: T2gt 0; TU2; T2gt 1] ("U22" +== Sc (2) 0 (Ein "akci,cj,bk->abij" [:: ("I.vovo",0); ("U11old",0); ("U11old",0)]));
  when [:: T2gt 0; TU2; T2gt 1] ("U22" +== Sc (2) 0 (Ein "bkcj,ci,ak->abij" [:: ("I.vovo",0); ("U11old",0); ("U11old",0)]));
  when [:: T2gt 0; TU2; T2gt 1] ("U22" +== Sc (-2) 0 (Ein "akcj,ci,bk->abij" [:: ("I.vovo",0); ("U11old",0); ("U11old",0)]));
  when [:: T2gt 0; TU2; T2gt 1] ("U22" +== Sc (2) 0 (Ein "bacd,di,cj->abij" [:: ("I.vvvv",0); ("U11old",0); ("U11old",0)]));
  when [:: T2gt 0; TU2; T2gt 1] ("U22" +== Ein "ki,bk,aj->abij" [:: ("g.oo",1); ("U11old",0); ("U12old",0)]);
  when [:: T2gt 0; TU2; T2gt 1] ("U22" +== Sc (-1) 0 (Ein "ki,ak,bj->abij" [:: ("g.oo",1); ("U11old",0); ("U12old",0)]));
  when [:: T2gt 0; TU2; T2gt 1] ("U22" +== Sc (-1) 0 (Ein "kj,bk,ai->abij" [:: ("g.oo",1); ("U11old",0); ("U12old",0)]));
  when [:: T2gt 0; TU2; T2gt 1] ("U22" +== Ein "kj,ak,bi->abij" [:: ("g.oo",1); ("U11old",0); ("U12old",0)]);
  when [:: T2gt 0; TU2; T2gt 1] ("U22" +== Ein "ki,bk,aj->abij" [:: ("g.oo",1); ("U11old",0); ("U12old",0)]);
  when [:: T2gt 0; TU2; T2gt 1] ("U22" +== Sc (-1) 0 (Ein "ki,ak,bj->abij" [:: ("g.oo",1); ("U11old",0); ("U12old",0)]));
  when [:: T2gt 0; TU2; T2gt 1] ("U22" +== Sc (-1) 0 (Ein "kj,bk,ai->abij" [:: ("g.oo",1); ("U11old",0); ("U12old",0)]));
  when [:: T2gt 0; TU2; T2gt 1] ("U22" +== Ein "kj,ak,bi->abij" [:: ("g.oo",1); ("U11old",0); ("U12old",0)]);
  when [:: T2gt 0; TU2; T2gt 1] ("U22" +== Sc (-1) 0 (Ein "ki,bj,ak->abij" [:: ("g.oo",1); ("U11old",0); ("U12old",0)]));
  when [:: T2gt 0; TU2; T2gt 1] ("U22" +== Ein "ki,aj,bk->abij" [:: ("g.oo",1); ("U11old",0); ("U12old",0)]);
  when [:: T2gt 0; TU2; T2gt 1] ("U22" +== Ein "kj,bi,ak->abij" [:: ("g.oo",1); ("U11old",0); ("U12old",0)]);
  when [:: T2gt 0; TU2; T2gt 1] ("U22" +== Sc (-1) 0 (Ein "kj,ai,bk->abij" [:: ("g.oo",1); ("U11old",0); ("U12old",0)]));
  when [:: T2gt 0; TU2; T2gt 1] ("U22" +== Sc (-1) 0 (Ein "bc,ci,aj->abij" [:: ("g.vv",1); ("U11old",0); ("U12old",0)]));
  when [:: T2gt 0; TU2; T2gt 1] ("U22" +== Ein "ac,ci,bj->abij" [:: ("g.vv",1); ("U11old",0); ("U12old",0)]);
  when [:: T2gt 0; TU2; T2gt 1] ("U22" +== Ein "bc,cj,ai->abij" [:: ("g.vv",1); ("U11old",0); ("U12old",0)]);
  when [:: T2gt 0; TU2; T2gt 1] ("U22" +== Sc (-1) 0 (Ein "ac,cj,bi->abij" [:: ("g.vv",1); ("U11old",0); ("U12old",0)]));
  when [:: T2gt 0; TU2; T2gt 1] ("U22" +== Sc (-1) 0 (Ein "bc,ci,aj->abij" [:: ("g.vv",1); ("U11old",0); ("U12old",0)]));
  when [:: T2gt 0; TU2; T2gt 1] ("U22" +== Ein "ac,ci,bj->abij" [:: ("g.vv",1); ("U11old",0); ("U12old",0)]);
  when [:: T2gt 0; TU2; T2gt 1] ("U22" +== Ein "bc,cj,ai->abij" [:: ("g.vv",1); ("U11old",0); ("U12old",0)]);
  when [:: T2gt 0; TU2; T2gt 1] ("U22" +== Sc (-1) 0 (Ein "ac,cj,bi->abij" [:: ("g.vv",1); ("U11old",0); ("U12old",0)]));
  when [:: T2gt 0; TU2; T2gt 1] ("U22" +== Ein "bc,ai,cj->abij" [:: ("g.vv",1); ("U11old",0); ("U12old",0)]);
  when [:: T2gt 0; TU2; T2gt 1] ("U22" +== Sc (-1) 0 (Ein "ac,bi,cj->abij" [:: ("g.vv",1); ("U11old",0); ("U12old",0)]));
  when [:: T2gt 0; TU2; T2gt 1] ("U22" +== Sc (-1) 0 (Ein "bc,aj,ci->abij" [:: ("g.vv",1); ("U11old",0); ("U12old",0)]));
  when [:: T2gt 0; TU2; T2gt 1] ("U22" +== Ein "ac,bj,ci->abij" [:: ("g.vv",1); ("U11old",0); ("U12old",0)]);
  when [:: T2gt 0; TU2; T2gt 1] ("U22" +== Ein "klic,cj,balk->abij" [:: ("I.ooov",0); ("U11old",0); ("U21old",0)]);
  when [:: T2gt 0; TU2; T2gt 1] ("U22" +== Sc (-2) 0 (Ein "klic,bk,aclj->abij" [:: ("I.ooov",0); ("U11old",0); ("U21old",0)]));
  when [:: T2gt 0; TU2; T2gt 1] ("U22" +== Sc (2) 0 (Ein "klic,ak,bclj->abij" [:: ("I.ooov",0); ("U11old",0); ("U21old",0)]));
  when [:: T2gt 0; TU2; T2gt 1] ("U22" +== Sc (-2) 0 (Ein "klic,ck,balj->abij" [:: ("I.ooov",0); ("U11old",0); ("U21old",0)]));
  when [:: T2gt 0; TU2; T2gt 1] ("U22" +== Sc (-1) 0 (Ein "kljc,ci,balk->abij" [:: ("I.ooov",0); ("U11old",0); ("U21old",0)]));
  when [:: T2gt 0; TU2; T2gt 1] ("U22" +== Sc (2) 0 (Ein "kljc,bk,acli->abij" [:: ("I.ooov",0); ("U11old",0); ("U21old",0)]));
  when [:: T2gt 0; TU2; T2gt 1] ("U22" +== Sc (-2) 0 (Ein "kljc,ak,bcli->abij" [:: ("I.ooov",0); ("U11old",0); ("U21old",0)]));
  when [:: T2gt 0; TU2; T2gt 1] ("U22" +== Sc (2) 0 (Ein "kljc,ck,bali->abij" [:: ("I.ooov",0); ("U11old",0); ("U21old",0)]));
  when [:: T2gt 0; TU2; T2gt 1] ("U22" +== Sc (-2) 0 (Ein "bkcd,di,ackj->abij" [:: ("I.vovv",0); ("U11old",0); ("U21old",0)]));
  when [:: T2gt 0; TU2; T2gt 1] ("U22" +== Sc (2) 0 (Ein "akcd,di,bckj->abij" [:: ("I.vovv",0); ("U11old",0); ("U21old",0)]));
  when [:: T2gt 0; TU2; T2gt 1] ("U22" +== Sc (2) 0 (Ein "bkcd,dj,acki->abij" [:: ("I.vovv",0); ("U11old",0); ("U21old",0)]));
  when [:: T2gt 0; TU2; T2gt 1] ("U22" +== Sc (-2) 0 (Ein "akcd,dj,bcki->abij" [:: ("I.vovv",0); ("U11old",0); ("U21old",0)]));
  when [:: T2gt 0; TU2; T2gt 1] ("U22" +== Ein "bkcd,ak,dcji->abij" [:: ("I.vovv",0); ("U11old",0); ("U21old",0)]);
  when [:: T2gt 0; TU2; T2gt 1] ("U22" +== Sc (-2) 0 (Ein "bkcd,dk,acji->abij" [:: ("I.vovv",0); ("U11old",0); ("U21old",0)]));
  when [:: T2gt 0; TU2; T2gt 1] ("U22" +== Sc (-1) 0 (Ein "akcd,bk,dcji->abij" [:: ("I.vovv",0); ("U11old",0); ("U21old",0)]));
  when [:: T2gt 0; TU2; T2gt 1] ("U22" +== Sc (2) 0 (Ein "akcd,dk,bcji->abij" [:: ("I.vovv",0); ("U11old",0); ("U21old",0)]));
  when [:: T2gt 0; TU2; T2gt 1] ("U22" +== Ein "kc,ci,bakj->abij" [:: ("g.ov",1); ("U11old",0); ("U22old",0)]);
  when [:: T2gt 0; TU2; T2gt 1] ("U22" +== Sc (-1) 0 (Ein "kc,cj,baki->abij" [:: ("g.ov",1); ("U11old",0); ("U22old",0)]));
  when [:: T2gt 0; TU2; T2gt 1] ("U22" +== Ein "kc,bk,acji->abij" [:: ("g.ov",1); ("U11old",0); ("U22old",0)]);
  when [:: T2gt 0; TU2; T2gt 1] ("U22" +== Sc (-1) 0 (Ein "kc,ak,bcji->abij" [:: ("g.ov",1); ("U11old",0); ("U22old",0)]));
  when [:: T2gt 0; TU2; T2gt 1] ("U22" +== Ein "kc,ck,baji->abij" [:: ("g.ov",1); ("U11old",0); ("U22old",0)]);
  when [:: T2gt 0; TU2; T2gt 1] ("U22" +== Ein "kc,ci,bakj->abij" [:: ("g.ov",1); ("U11old",0); ("U22old",0)]);
  when [:: T2gt 0; TU2; T2gt 1] ("U22" +== Sc (-1) 0 (Ein "kc,cj,baki->abij" [:: ("g.ov",1); ("U11old",0); ("U22old",0)]));
  when [:: T2gt 0; TU2; T2gt 1] ("U22" +== Ein "kc,bk,acji->abij" [:: ("g.ov",1); ("U11old",0); ("U22old",0)]);
  when [:: T2gt 0; TU2; T2gt 1] ("U22" +== Sc (-1) 0 (Ein "kc,ak,bcji->abij" [:: ("g.ov",1); ("U11old",0); ("U22old",0)]));
  when [:: T2gt 0; TU2; T2gt 1] ("U22" +== Ein "kc,ck,baji->abij" [:: ("g.ov",1); ("U11old",0); ("U22old",0)]);
  when [:: T2gt 0; TU2; T2gt 1] ("U22" +== Ein "kc,bi,ackj->abij" [:: ("g.ov",1); ("U11old",0); ("U22old",0)]);
  when [:: T2gt 0; TU2; T2gt 1] ("U22" +== Sc (-1) 0 (Ein "kc,ai,bckj->abij" [:: ("g.ov",1); ("U11old",0); ("U22old",0)]));
  when [:: T2gt 0; TU2; T2gt 1] ("U22" +== Ein "kc,ci,bakj->abij" [:: ("g.ov",1); ("U11old",0); ("U22old",0)]);
  when [:: T2gt 0; TU2; T2gt 1] ("U22" +== Sc (-1) 0 (Ein "kc,bj,acki->abij" [:: ("g.ov",1); ("U11old",0); ("U22old",0)]));
  when [:: T2gt 0; TU2; T2gt 1] ("U22" +== Ein "kc,aj,bcki->abij" [:: ("g.ov",1); ("U11old",0); ("U22old",0)]);
  when [:: T2gt 0; TU2; T2gt 1] ("U22" +== Sc (-1) 0 (Ein "kc,cj,baki->abij" [:: ("g.ov",1); ("U11old",0); ("U22old",0)]));
  when [:: T2gt 0; TU2; T2gt 1] ("U22" +== Ein "kc,bk,acji->abij" [:: ("g.ov",1); ("U11old",0); ("U22old",0)]);
  when [:: T2gt 0; TU2; T2gt 1] ("U22" +== Sc (-1) 0 (Ein "kc,ak,bcji->abij" [:: ("g.ov",1); ("U11old",0); ("U22old",0)]));
  when [:: T2gt 0; TU2; T2gt 1] ("U22" +== Sc (-1) 0 (Ein "kc,bcji,ak->abij" [:: ("g.ov",1); ("U21old",0); ("U12old",0)]));
  when [:: T2gt 0; TU2; T2gt 1] ("U22" +== Ein "kc,acji,bk->abij" [:: ("g.ov",1); ("U21old",0); ("U12old",0)]);
  when [:: T2gt 0; TU2; T2gt 1] ("U22" +== Sc (-1) 0 (Ein "kc,baki,cj->abij" [:: ("g.ov",1); ("U21old",0); ("U12old",0)]));
  when [:: T2gt 0; TU2; T2gt 1] ("U22" +== Ein "kc,bcki,aj->abij" [:: ("g.ov",1); ("U21old",0); ("U12old",0)]);
  when [:: T2gt 0; TU2; T2gt 1] ("U22" +== Sc (-1) 0 (Ein "kc,acki,bj->abij" [:: ("g.ov",1); ("U21old",0); ("U12old",0)]));
  when [:: T2gt 0; TU2; T2gt 1] ("U22" +== Ein "kc,bakj,ci->abij" [:: ("g.ov",1); ("U21old",0); ("U12old",0)]);
  when [:: T2gt 0; TU2; T2gt 1] ("U22" +== Sc (-1) 0 (Ein "kc,bckj,ai->abij" [:: ("g.ov",1); ("U21old",0); ("U12old",0)]));
  when [:: T2gt 0; TU2; T2gt 1] ("U22" +== Ein "kc,ackj,bi->abij" [:: ("g.ov",1); ("U21old",0); ("U12old",0)]);
  when [:: T2gt 0; TU2; T2gt 1] ("U22" +== Sc (-1) 0 (Ein "kc,bcji,ak->abij" [:: ("g.ov",1); ("U21old",0); ("U12old",0)]));
  when [:: T2gt 0; TU2; T2gt 1] ("U22" +== Ein "kc,acji,bk->abij" [:: ("g.ov",1); ("U21old",0); ("U12old",0)]);
  when [:: T2gt 0; TU2; T2gt 1] ("U22" +== Sc (-1) 0 (Ein "kc,baki,cj->abij" [:: ("g.ov",1); ("U21old",0); ("U12old",0)]));
  when [:: T2gt 0; TU2; T2gt 1] ("U22" +== Ein "kc,bcki,aj->abij" [:: ("g.ov",1); ("U21old",0); ("U12old",0)]);
  when [:: T2gt 0; TU2; T2gt 1] ("U22" +== Sc (-1) 0 (Ein "kc,acki,bj->abij" [:: ("g.ov",1); ("U21old",0); ("U12old",0)]));
  when [:: T2gt 0; TU2; T2gt 1] ("U22" +== Ein "kc,bakj,ci->abij" [:: ("g.ov",1); ("U21old",0); ("U12old",0)]);
  when [:: T2gt 0; TU2; T2gt 1] ("U22" +== Sc (-1) 0 (Ein "kc,bckj,ai->abij" [:: ("g.ov",1); ("U21old",0); ("U12old",0)]));
  when [:: T2gt 0; TU2; T2gt 1] ("U22" +== Ein "kc,ackj,bi->abij" [:: ("g.ov",1); ("U21old",0); ("U12old",0)]);
  when [:: T2gt 0; TU2; T2gt 1] ("U22" +== Ein "kc,baji,ck->abij" [:: ("g.ov",1); ("U21old",0); ("U12old",0)]);
  when [:: T2gt 0; TU2; T2gt 1] ("U22" +== Sc (-1) 0 (Ein "kc,bcji,ak->abij" [:: ("g.ov",1); ("U21old",0); ("U12old",0)]));
  when [:: T2gt 0; TU2; T2gt 1] ("U22" +== Ein "kc,acji,bk->abij" [:: ("g.ov",1); ("U21old",0); ("U12old",0)]);
  when [:: T2gt 0; TU2; T2gt 1] ("U22" +== Sc (-1) 0 (Ein "kc,baki,cj->abij" [:: ("g.ov",1); ("U21old",0); ("U12old",0)]));
  when [:: T2gt 0; TU2; T2gt 1] ("U22" +== Ein "kc,bakj,ci->abij" [:: ("g.ov",1); ("U21old",0); ("U12old",0)]);
  when [:: T2gt 0; TU2; T2gt 1] ("U22" +== Sc (-1) 0 (Ein "klic,cj,bk,al->abij" [:: ("I.ooov",0); ("T1old",0); ("T1old",0); ("U12old",0)]));
  when [:: T2gt 0; TU2; T2gt 1] ("U22" +== Ein "klic,cj,ak,bl->abij" [:: ("I.ooov",0); ("T1old",0); ("T1old",0); ("U12old",0)]);
  when [:: T2gt 0; TU2; T2gt 1] ("U22" +== Sc (-1) 0 (Ein "klic,bk,al,cj->abij" [:: ("I.ooov",0); ("T1old",0); ("T1old",0); ("U12old",0)]));
  when [:: T2gt 0; TU2; T2gt 1] ("U22" +== Ein "kljc,ci,bk,al->abij" [:: ("I.ooov",0); ("T1old",0); ("T1old",0); ("U12old",0)]);
  when [:: T2gt 0; TU2; T2gt 1] ("U22" +== Sc (-1) 0 (Ein "kljc,ci,ak,bl->abij" [:: ("I.ooov",0); ("T1old",0); ("T1old",0); ("U12old",0)]));
  when [:: T2gt 0; TU2; T2gt 1] ("U22" +== Ein "kljc,bk,al,ci->abij" [:: ("I.ooov",0); ("T1old",0); ("T1old",0); ("U12old",0)]);
  when [:: T2gt 0; TU2; T2gt 1] ("U22" +== Sc (-1) 0 (Ein "bkcd,di,cj,ak->abij" [:: ("I.vovv",0); ("T1old",0); ("T1old",0); ("U12old",0)]));
  when [:: T2gt 0; TU2; T2gt 1] ("U22" +== Ein "akcd,di,cj,bk->abij" [:: ("I.vovv",0); ("T1old",0); ("T1old",0); ("U12old",0)]);
  when [:: T2gt 0; TU2; T2gt 1] ("U22" +== Sc (-1) 0 (Ein "bkcd,di,ak,cj->abij" [:: ("I.vovv",0); ("T1old",0); ("T1old",0); ("U12old",0)]));
  when [:: T2gt 0; TU2; T2gt 1] ("U22" +== Ein "akcd,di,bk,cj->abij" [:: ("I.vovv",0); ("T1old",0); ("T1old",0); ("U12old",0)]);
  when [:: T2gt 0; TU2; T2gt 1] ("U22" +== Ein "bkcd,dj,ak,ci->abij" [:: ("I.vovv",0); ("T1old",0); ("T1old",0); ("U12old",0)]);
  when [:: T2gt 0; TU2; T2gt 1] ("U22" +== Sc (-1) 0 (Ein "akcd,dj,bk,ci->abij" [:: ("I.vovv",0); ("T1old",0); ("T1old",0); ("U12old",0)]));
  when [:: T2gt 0; TU2; T2gt 1] ("U22" +== Mul ("S1old",0) (Ein "kc,ci,bakj->abij" [:: ("g.ov",1); ("T1old",0); ("U22old",0)]));
  when [:: T2gt 0; TU2; T2gt 1] ("U22" +== Sc (-1) 0 (Mul ("S1old",0) (Ein "kc,cj,baki->abij" [:: ("g.ov",1); ("T1old",0); ("U22old",0)])));
  when [:: T2gt 0; TU2; T2gt 1] ("U22" +== Mul ("S1old",0) (Ein "kc,bk,acji->abij" [:: ("g.ov",1); ("T1old",0); ("U22old",0)]));
  when [:: T2gt 0; TU2; T2gt 1] ("U22" +== Sc (-1) 0 (Mul ("S1old",0) (Ein "kc,ak,bcji->abij" [:: ("g.ov",1); ("T1old",0); ("U22old",0)])));
  when [:: T2gt 0; TU2; T2gt 1] ("U22" +== Sc (-1) 0 (Mul ("S1old",0) (Ein "kc,bcji,ak->abij" [:: ("g.ov",1); ("T2old",0); ("U12old",0)])));
  when [:: T2gt 0; TU2; T2gt 1] ("U22" +== Mul ("S1old",0) (Ein "kc,acji,bk->abij" [:: ("g.ov",1); ("T2old",0); ("U12old",0)]));
  when [:: T2gt 0; TU2; T2gt 1] ("U22" +== Sc (-1) 0 (Mul ("S1old",0) (Ein "kc,baki,cj->abij" [:: ("g.ov",1); ("T2old",0); ("U12old",0)])));
  when [:: T2gt 0; TU2; T2gt 1] ("U22" +== Mul ("S1old",0) (Ein "kc,bakj,ci->abij" [:: ("g.ov",1); ("T2old",0); ("U12old",0)]));
  when [:: T2gt 0; TU2; T2gt 1] ("U22" +== Sc (-1) 0 (Ein "klcd,bdji,aclk->abij" [:: ("I.oovv",0); ("U21old",0); ("U21old",0)]));
  when [:: T2gt 0; TU2; T2gt 1] ("U22" +== Ein "klcd,adji,bclk->abij" [:: ("I.oovv",0); ("U21old",0); ("U21old",0)]);
  when [:: T2gt 0; TU2; T2gt 1] ("U22" +== Sc (1) 1 (Ein "klcd,dcji,balk->abij" [:: ("I.oovv",0); ("U21old",0); ("U21old",0)]));
  when [:: T2gt 0; TU2; T2gt 1] ("U22" +== Sc (-1) 0 (Ein "klcd,baki,dclj->abij" [:: ("I.oovv",0); ("U21old",0); ("U21old",0)]));
  when [:: T2gt 0; TU2; T2gt 1] ("U22" +== Sc (2) 0 (Ein "klcd,bdki,aclj->abij" [:: ("I.oovv",0); ("U21old",0); ("U21old",0)]));
  when [:: T2gt 0; TU2; T2gt 1] ("U22" +== Sc (-2) 0 (Ein "klcd,adki,bclj->abij" [:: ("I.oovv",0); ("U21old",0); ("U21old",0)]));
  when [:: T2gt 0; TU2; T2gt 1] ("U22" +== Sc (-1) 0 (Ein "klcd,dcki,balj->abij" [:: ("I.oovv",0); ("U21old",0); ("U21old",0)]));
  when [:: T2gt 0; TU2; T2gt 1] ("U22" +== Sc (-1) 1 (Ein "klcd,di,cj,balk->abij" [:: ("I.oovv",0); ("T1old",0); ("T1old",0); ("U22old",0)]));
  when [:: T2gt 0; TU2; T2gt 1] ("U22" +== Ein "klcd,di,bk,aclj->abij" [:: ("I.oovv",0); ("T1old",0); ("T1old",0); ("U22old",0)]);
  when [:: T2gt 0; TU2; T2gt 1] ("U22" +== Sc (-1) 0 (Ein "klcd,di,ak,bclj->abij" [:: ("I.oovv",0); ("T1old",0); ("T1old",0); ("U22old",0)]));
  when [:: T2gt 0; TU2; T2gt 1] ("U22" +== Ein "klcd,di,ck,balj->abij" [:: ("I.oovv",0); ("T1old",0); ("T1old",0); ("U22old",0)]);
  when [:: T2gt 0; TU2; T2gt 1] ("U22" +== Sc (-1) 0 (Ein "klcd,dj,bk,acli->abij" [:: ("I.oovv",0); ("T1old",0); ("T1old",0); ("U22old",0)]));
  when [:: T2gt 0; TU2; T2gt 1] ("U22" +== Ein "klcd,dj,ak,bcli->abij" [:: ("I.oovv",0); ("T1old",0); ("T1old",0); ("U22old",0)]);
  when [:: T2gt 0; TU2; T2gt 1] ("U22" +== Sc (-1) 0 (Ein "klcd,dj,ck,bali->abij" [:: ("I.oovv",0); ("T1old",0); ("T1old",0); ("U22old",0)]));
  when [:: T2gt 0; TU2; T2gt 1] ("U22" +== Sc (-1) 1 (Ein "klcd,bk,al,dcji->abij" [:: ("I.oovv",0); ("T1old",0); ("T1old",0); ("U22old",0)]));
  when [:: T2gt 0; TU2; T2gt 1] ("U22" +== Ein "klcd,bk,dl,acji->abij" [:: ("I.oovv",0); ("T1old",0); ("T1old",0); ("U22old",0)]);
  when [:: T2gt 0; TU2; T2gt 1] ("U22" +== Sc (-1) 0 (Ein "klcd,ak,dl,bcji->abij" [:: ("I.oovv",0); ("T1old",0); ("T1old",0); ("U22old",0)]));
  when [:: T2gt 0; TU2; T2gt 1] ("U22" +== Sc (-1) 0 (Ein "klcd,di,bakj,cl->abij" [:: ("I.oovv",0); ("T1old",0); ("T2old",0); ("U12old",0)]));
  when [:: T2gt 0; TU2; T2gt 1] ("U22" +== Ein "klcd,di,bckj,al->abij" [:: ("I.oovv",0); ("T1old",0); ("T2old",0); ("U12old",0)]);
  when [:: T2gt 0; TU2; T2gt 1] ("U22" +== Sc (-1) 0 (Ein "klcd,di,ackj,bl->abij" [:: ("I.oovv",0); ("T1old",0); ("T2old",0); ("U12old",0)]));
  when [:: T2gt 0; TU2; T2gt 1] ("U22" +== Sc (-1) 1 (Ein "klcd,di,balk,cj->abij" [:: ("I.oovv",0); ("T1old",0); ("T2old",0); ("U12old",0)]));
  when [:: T2gt 0; TU2; T2gt 1] ("U22" +== Ein "klcd,dj,baki,cl->abij" [:: ("I.oovv",0); ("T1old",0); ("T2old",0); ("U12old",0)]);
  when [:: T2gt 0; TU2; T2gt 1] ("U22" +== Sc (-1) 0 (Ein "klcd,dj,bcki,al->abij" [:: ("I.oovv",0); ("T1old",0); ("T2old",0); ("U12old",0)]));
  when [:: T2gt 0; TU2; T2gt 1] ("U22" +== Ein "klcd,dj,acki,bl->abij" [:: ("I.oovv",0); ("T1old",0); ("T2old",0); ("U12old",0)]);
  when [:: T2gt 0; TU2; T2gt 1] ("U22" +== Sc (-1) 0 (Ein "klcd,bk,adji,cl->abij" [:: ("I.oovv",0); ("T1old",0); ("T2old",0); ("U12old",0)]));
  when [:: T2gt 0; TU2; T2gt 1] ("U22" +== Sc (-1) 1 (Ein "klcd,bk,dcji,al->abij" [:: ("I.oovv",0); ("T1old",0); ("T2old",0); ("U12old",0)]));
  when [:: T2gt 0; TU2; T2gt 1] ("U22" +== Ein "klcd,ak,bdji,cl->abij" [:: ("I.oovv",0); ("T1old",0); ("T2old",0); ("U12old",0)]);
  when [:: T2gt 0; TU2; T2gt 1] ("U22" +== Ein "klcd,dk,bcji,al->abij" [:: ("I.oovv",0); ("T1old",0); ("T2old",0); ("U12old",0)]);
  when [:: T2gt 0; TU2; T2gt 1] ("U22" +== Sc (1) 1 (Ein "klcd,ak,dcji,bl->abij" [:: ("I.oovv",0); ("T1old",0); ("T2old",0); ("U12old",0)]));
  when [:: T2gt 0; TU2; T2gt 1] ("U22" +== Sc (-1) 0 (Ein "klcd,dk,acji,bl->abij" [:: ("I.oovv",0); ("T1old",0); ("T2old",0); ("U12old",0)]));
  when [:: T2gt 0; TU2; T2gt 1] ("U22" +== Ein "klcd,bk,adli,cj->abij" [:: ("I.oovv",0); ("T1old",0); ("T2old",0); ("U12old",0)]);
  when [:: T2gt 0; TU2; T2gt 1] ("U22" +== Sc (-1) 0 (Ein "klcd,ak,bdli,cj->abij" [:: ("I.oovv",0); ("T1old",0); ("T2old",0); ("U12old",0)]));
  when [:: T2gt 0; TU2; T2gt 1] ("U22" +== Ein "klcd,dk,bali,cj->abij" [:: ("I.oovv",0); ("T1old",0); ("T2old",0); ("U12old",0)]);
  when [:: T2gt 0; TU2; T2gt 1] ("U22" +== Sc (1) 1 (Ein "klcd,dj,balk,ci->abij" [:: ("I.oovv",0); ("T1old",0); ("T2old",0); ("U12old",0)]));
  when [:: T2gt 0; TU2; T2gt 1] ("U22" +== Sc (-1) 0 (Ein "klcd,bk,adlj,ci->abij" [:: ("I.oovv",0); ("T1old",0); ("T2old",0); ("U12old",0)]));
  when [:: T2gt 0; TU2; T2gt 1] ("U22" +== Ein "klcd,ak,bdlj,ci->abij" [:: ("I.oovv",0); ("T1old",0); ("T2old",0); ("U12old",0)]);
  when [:: T2gt 0; TU2; T2gt 1] ("U22" +== Sc (-1) 0 (Ein "klcd,dk,balj,ci->abij" [:: ("I.oovv",0); ("T1old",0); ("T2old",0); ("U12old",0)]));
  when [:: T2gt 0; TU2; T2gt 1] ("U22" +== Sc (-2) 0 (Ein "klic,cj,bk,al->abij" [:: ("I.ooov",0); ("T1old",0); ("U11old",0); ("U11old",0)]));
  when [:: T2gt 0; TU2; T2gt 1] ("U22" +== Sc (-2) 0 (Ein "klic,bk,cj,al->abij" [:: ("I.ooov",0); ("T1old",0); ("U11old",0); ("U11old",0)]));
  when [:: T2gt 0; TU2; T2gt 1] ("U22" +== Sc (2) 0 (Ein "klic,ak,cj,bl->abij" [:: ("I.ooov",0); ("T1old",0); ("U11old",0); ("U11old",0)]));
  when [:: T2gt 0; TU2; T2gt 1] ("U22" +== Sc (2) 0 (Ein "kljc,ci,bk,al->abij" [:: ("I.ooov",0); ("T1old",0); ("U11old",0); ("U11old",0)]));
  when [:: T2gt 0; TU2; T2gt 1] ("U22" +== Sc (2) 0 (Ein "kljc,bk,ci,al->abij" [:: ("I.ooov",0); ("T1old",0); ("U11old",0); ("U11old",0)]));
  when [:: T2gt 0; TU2; T2gt 1] ("U22" +== Sc (-2) 0 (Ein "kljc,ak,ci,bl->abij" [:: ("I.ooov",0); ("T1old",0); ("U11old",0); ("U11old",0)]));
  when [:: T2gt 0; TU2; T2gt 1] ("U22" +== Sc (-2) 0 (Ein "bkcd,di,cj,ak->abij" [:: ("I.vovv",0); ("T1old",0); ("U11old",0); ("U11old",0)]));
  when [:: T2gt 0; TU2; T2gt 1] ("U22" +== Sc (2) 0 (Ein "akcd,di,cj,bk->abij" [:: ("I.vovv",0); ("T1old",0); ("U11old",0); ("U11old",0)]));
  when [:: T2gt 0; TU2; T2gt 1] ("U22" +== Sc (2) 0 (Ein "bkcd,dj,ci,ak->abij" [:: ("I.vovv",0); ("T1old",0); ("U11old",0); ("U11old",0)]));
  when [:: T2gt 0; TU2; T2gt 1] ("U22" +== Sc (-2) 0 (Ein "akcd,dj,ci,bk->abij" [:: ("I.vovv",0); ("T1old",0); ("U11old",0); ("U11old",0)]));
  when [:: T2gt 0; TU2; T2gt 1] ("U22" +== Sc (-2) 0 (Ein "bkcd,ak,di,cj->abij" [:: ("I.vovv",0); ("T1old",0); ("U11old",0); ("U11old",0)]));
  when [:: T2gt 0; TU2; T2gt 1] ("U22" +== Sc (2) 0 (Ein "akcd,bk,di,cj->abij" [:: ("I.vovv",0); ("T1old",0); ("U11old",0); ("U11old",0)]));
  when [:: T2gt 0; TU2; T2gt 1] ("U22" +== Ein "kc,ci,bk,aj->abij" [:: ("g.ov",1); ("T1old",0); ("U11old",0); ("U12old",0)]);
  when [:: T2gt 0; TU2; T2gt 1] ("U22" +== Sc (-1) 0 (Ein "kc,ci,ak,bj->abij" [:: ("g.ov",1); ("T1old",0); ("U11old",0); ("U12old",0)]));
  when [:: T2gt 0; TU2; T2gt 1] ("U22" +== Ein "kc,bk,ci,aj->abij" [:: ("g.ov",1); ("T1old",0); ("U11old",0); ("U12old",0)]);
  when [:: T2gt 0; TU2; T2gt 1] ("U22" +== Sc (-1) 0 (Ein "kc,ak,ci,bj->abij" [:: ("g.ov",1); ("T1old",0); ("U11old",0); ("U12old",0)]));
  when [:: T2gt 0; TU2; T2gt 1] ("U22" +== Sc (-1) 0 (Ein "kc,cj,bk,ai->abij" [:: ("g.ov",1); ("T1old",0); ("U11old",0); ("U12old",0)]));
  when [:: T2gt 0; TU2; T2gt 1] ("U22" +== Ein "kc,cj,ak,bi->abij" [:: ("g.ov",1); ("T1old",0); ("U11old",0); ("U12old",0)]);
  when [:: T2gt 0; TU2; T2gt 1] ("U22" +== Sc (-1) 0 (Ein "kc,bk,cj,ai->abij" [:: ("g.ov",1); ("T1old",0); ("U11old",0); ("U12old",0)]));
  when [:: T2gt 0; TU2; T2gt 1] ("U22" +== Ein "kc,ak,cj,bi->abij" [:: ("g.ov",1); ("T1old",0); ("U11old",0); ("U12old",0)]);
  when [:: T2gt 0; TU2; T2gt 1] ("U22" +== Ein "kc,ci,bk,aj->abij" [:: ("g.ov",1); ("T1old",0); ("U11old",0); ("U12old",0)]);
  when [:: T2gt 0; TU2; T2gt 1] ("U22" +== Sc (-1) 0 (Ein "kc,ci,ak,bj->abij" [:: ("g.ov",1); ("T1old",0); ("U11old",0); ("U12old",0)]));
  when [:: T2gt 0; TU2; T2gt 1] ("U22" +== Ein "kc,bk,ci,aj->abij" [:: ("g.ov",1); ("T1old",0); ("U11old",0); ("U12old",0)]);
  when [:: T2gt 0; TU2; T2gt 1] ("U22" +== Sc (-1) 0 (Ein "kc,ak,ci,bj->abij" [:: ("g.ov",1); ("T1old",0); ("U11old",0); ("U12old",0)]));
  when [:: T2gt 0; TU2; T2gt 1] ("U22" +== Sc (-1) 0 (Ein "kc,cj,bk,ai->abij" [:: ("g.ov",1); ("T1old",0); ("U11old",0); ("U12old",0)]));
  when [:: T2gt 0; TU2; T2gt 1] ("U22" +== Ein "kc,cj,ak,bi->abij" [:: ("g.ov",1); ("T1old",0); ("U11old",0); ("U12old",0)]);
  when [:: T2gt 0; TU2; T2gt 1] ("U22" +== Sc (-1) 0 (Ein "kc,bk,cj,ai->abij" [:: ("g.ov",1); ("T1old",0); ("U11old",0); ("U12old",0)]));
  when [:: T2gt 0; TU2; T2gt 1] ("U22" +== Ein "kc,ak,cj,bi->abij" [:: ("g.ov",1); ("T1old",0); ("U11old",0); ("U12old",0)]);
  when [:: T2gt 0; TU2; T2gt 1] ("U22" +== Sc (-1) 0 (Ein "kc,ci,bj,ak->abij" [:: ("g.ov",1); ("T1old",0); ("U11old",0); ("U12old",0)]));
  when [:: T2gt 0; TU2; T2gt 1] ("U22" +== Ein "kc,ci,aj,bk->abij" [:: ("g.ov",1); ("T1old",0); ("U11old",0); ("U12old",0)]);
  when [:: T2gt 0; TU2; T2gt 1] ("U22" +== Ein "kc,cj,bi,ak->abij" [:: ("g.ov",1); ("T1old",0); ("U11old",0); ("U12old",0)]);
  when [:: T2gt 0; TU2; T2gt 1] ("U22" +== Sc (-1) 0 (Ein "kc,cj,ai,bk->abij" [:: ("g.ov",1); ("T1old",0); ("U11old",0); ("U12old",0)]));
  when [:: T2gt 0; TU2; T2gt 1] ("U22" +== Sc (-1) 0 (Ein "kc,bk,ai,cj->abij" [:: ("g.ov",1); ("T1old",0); ("U11old",0); ("U12old",0)]));
  when [:: T2gt 0; TU2; T2gt 1] ("U22" +== Ein "kc,ak,bi,cj->abij" [:: ("g.ov",1); ("T1old",0); ("U11old",0); ("U12old",0)]);
  when [:: T2gt 0; TU2; T2gt 1] ("U22" +== Ein "kc,bk,aj,ci->abij" [:: ("g.ov",1); ("T1old",0); ("U11old",0); ("U12old",0)]);
  when [:: T2gt 0; TU2; T2gt 1] ("U22" +== Sc (-1) 0 (Ein "kc,ak,bj,ci->abij" [:: ("g.ov",1); ("T1old",0); ("U11old",0); ("U12old",0)]));
  when [:: T2gt 0; TU2; T2gt 1] ("U22" +== Sc (2) 0 (Mul ("S1old",0) (Ein "kc,ci,bakj->abij" [:: ("g.ov",1); ("U11old",0); ("U21old",0)])));
  when [:: T2gt 0; TU2; T2gt 1] ("U22" +== Sc (-2) 0 (Mul ("S1old",0) (Ein "kc,cj,baki->abij" [:: ("g.ov",1); ("U11old",0); ("U21old",0)])));
  when [:: T2gt 0; TU2; T2gt 1] ("U22" +== Sc (2) 0 (Mul ("S1old",0) (Ein "kc,bk,acji->abij" [:: ("g.ov",1); ("U11old",0); ("U21old",0)])));
  when [:: T2gt 0; TU2; T2gt 1] ("U22" +== Sc (-2) 0 (Mul ("S1old",0) (Ein "kc,ak,bcji->abij" [:: ("g.ov",1); ("U11old",0); ("U21old",0)])));
  when [:: T2gt 0; TU2; T2gt 1] ("U22" +== Sc (-1) 0 (Ein "klcd,di,cj,balk->abij" [:: ("I.oovv",0); ("T1old",0); ("U11old",0); ("U21old",0)]));
  when [:: T2gt 0; TU2; T2gt 1] ("U22" +== Sc (2) 0 (Ein "klcd,di,bk,aclj->abij" [:: ("I.oovv",0); ("T1old",0); ("U11old",0); ("U21old",0)]));
  when [:: T2gt 0; TU2; T2gt 1] ("U22" +== Sc (-2) 0 (Ein "klcd,di,ak,bclj->abij" [:: ("I.oovv",0); ("T1old",0); ("U11old",0); ("U21old",0)]));
  when [:: T2gt 0; TU2; T2gt 1] ("U22" +== Sc (2) 0 (Ein "klcd,di,ck,balj->abij" [:: ("I.oovv",0); ("T1old",0); ("U11old",0); ("U21old",0)]));
  when [:: T2gt 0; TU2; T2gt 1] ("U22" +== Ein "klcd,dj,ci,balk->abij" [:: ("I.oovv",0); ("T1old",0); ("U11old",0); ("U21old",0)]);
  when [:: T2gt 0; TU2; T2gt 1] ("U22" +== Sc (2) 0 (Ein "klcd,bk,di,aclj->abij" [:: ("I.oovv",0); ("T1old",0); ("U11old",0); ("U21old",0)]));
  when [:: T2gt 0; TU2; T2gt 1] ("U22" +== Sc (-2) 0 (Ein "klcd,ak,di,bclj->abij" [:: ("I.oovv",0); ("T1old",0); ("U11old",0); ("U21old",0)]));
  when [:: T2gt 0; TU2; T2gt 1] ("U22" +== Sc (-2) 0 (Ein "klcd,dk,ci,balj->abij" [:: ("I.oovv",0); ("T1old",0); ("U11old",0); ("U21old",0)]));
  when [:: T2gt 0; TU2; T2gt 1] ("U22" +== Sc (-2) 0 (Ein "klcd,dj,bk,acli->abij" [:: ("I.oovv",0); ("T1old",0); ("U11old",0); ("U21old",0)]));
  when [:: T2gt 0; TU2; T2gt 1] ("U22" +== Sc (2) 0 (Ein "klcd,dj,ak,bcli->abij" [:: ("I.oovv",0); ("T1old",0); ("U11old",0); ("U21old",0)]));
  when [:: T2gt 0; TU2; T2gt 1] ("U22" +== Sc (-2) 0 (Ein "klcd,dj,ck,bali->abij" [:: ("I.oovv",0); ("T1old",0); ("U11old",0); ("U21old",0)]));
  when [:: T2gt 0; TU2; T2gt 1] ("U22" +== Sc (-2) 0 (Ein "klcd,bk,dj,acli->abij" [:: ("I.oovv",0); ("T1old",0); ("U11old",0); ("U21old",0)]));
  when [:: T2gt 0; TU2; T2gt 1] ("U22" +== Sc (2) 0 (Ein "klcd,ak,dj,bcli->abij" [:: ("I.oovv",0); ("T1old",0); ("U11old",0); ("U21old",0)]));
  when [:: T2gt 0; TU2; T2gt 1] ("U22" +== Sc (2) 0 (Ein "klcd,dk,cj,bali->abij" [:: ("I.oovv",0); ("T1old",0); ("U11old",0); ("U21old",0)]));
  when [:: T2gt 0; TU2; T2gt 1] ("U22" +== Sc (-1) 0 (Ein "klcd,bk,al,dcji->abij" [:: ("I.oovv",0); ("T1old",0); ("U11old",0); ("U21old",0)]));
  when [:: T2gt 0; TU2; T2gt 1] ("U22" +== Sc (2) 0 (Ein "klcd,bk,dl,acji->abij" [:: ("I.oovv",0); ("T1old",0); ("U11old",0); ("U21old",0)]));
  when [:: T2gt 0; TU2; T2gt 1] ("U22" +== Ein "klcd,ak,bl,dcji->abij" [:: ("I.oovv",0); ("T1old",0); ("U11old",0); ("U21old",0)]);
  when [:: T2gt 0; TU2; T2gt 1] ("U22" +== Sc (-2) 0 (Ein "klcd,dk,bl,acji->abij" [:: ("I.oovv",0); ("T1old",0); ("U11old",0); ("U21old",0)]));
  when [:: T2gt 0; TU2; T2gt 1] ("U22" +== Sc (-2) 0 (Ein "klcd,ak,dl,bcji->abij" [:: ("I.oovv",0); ("T1old",0); ("U11old",0); ("U21old",0)]));
  when [:: T2gt 0; TU2; T2gt 1] ("U22" +== Sc (2) 0 (Ein "klcd,dk,al,bcji->abij" [:: ("I.oovv",0); ("T1old",0); ("U11old",0); ("U21old",0)]));
  when [:: T2gt 0; TU2; T2gt 1] ("U22" +== Sc (2) 0 (Ein "klcd,bdji,ak,cl->abij" [:: ("I.oovv",0); ("T2old",0); ("U11old",0); ("U11old",0)]));
  when [:: T2gt 0; TU2; T2gt 1] ("U22" +== Sc (-2) 0 (Ein "klcd,adji,bk,cl->abij" [:: ("I.oovv",0); ("T2old",0); ("U11old",0); ("U11old",0)]));
  when [:: T2gt 0; TU2; T2gt 1] ("U22" +== Sc (-1) 0 (Ein "klcd,dcji,bk,al->abij" [:: ("I.oovv",0); ("T2old",0); ("U11old",0); ("U11old",0)]));
  when [:: T2gt 0; TU2; T2gt 1] ("U22" +== Sc (2) 0 (Ein "klcd,baki,dj,cl->abij" [:: ("I.oovv",0); ("T2old",0); ("U11old",0); ("U11old",0)]));
  when [:: T2gt 0; TU2; T2gt 1] ("U22" +== Sc (2) 0 (Ein "klcd,bdki,cj,al->abij" [:: ("I.oovv",0); ("T2old",0); ("U11old",0); ("U11old",0)]));
  when [:: T2gt 0; TU2; T2gt 1] ("U22" +== Sc (-2) 0 (Ein "klcd,adki,cj,bl->abij" [:: ("I.oovv",0); ("T2old",0); ("U11old",0); ("U11old",0)]));
  when [:: T2gt 0; TU2; T2gt 1] ("U22" +== Sc (-2) 0 (Ein "klcd,bakj,di,cl->abij" [:: ("I.oovv",0); ("T2old",0); ("U11old",0); ("U11old",0)]));
  when [:: T2gt 0; TU2; T2gt 1] ("U22" +== Sc (-2) 0 (Ein "klcd,bdkj,ci,al->abij" [:: ("I.oovv",0); ("T2old",0); ("U11old",0); ("U11old",0)]));
  when [:: T2gt 0; TU2; T2gt 1] ("U22" +== Sc (-1) 0 (Ein "klcd,balk,di,cj->abij" [:: ("I.oovv",0); ("T2old",0); ("U11old",0); ("U11old",0)]));
  when [:: T2gt 0; TU2; T2gt 1] ("U22" +== Sc (2) 0 (Ein "klcd,adkj,ci,bl->abij" [:: ("I.oovv",0); ("T2old",0); ("U11old",0); ("U11old",0)]));
  when [:: T2gt 0; TU2; T2gt 1] ("U22" +== Sc (2) 0 (Ein "kc,bi,cj,ak->abij" [:: ("g.ov",1); ("U11old",0); ("U11old",0); ("U11old",0)]));
  when [:: T2gt 0; TU2; T2gt 1] ("U22" +== Sc (-2) 0 (Ein "kc,ci,bj,ak->abij" [:: ("g.ov",1); ("U11old",0); ("U11old",0); ("U11old",0)]));
  when [:: T2gt 0; TU2; T2gt 1] ("U22" +== Sc (-2) 0 (Ein "kc,ai,cj,bk->abij" [:: ("g.ov",1); ("U11old",0); ("U11old",0); ("U11old",0)]));
  when [:: T2gt 0; TU2; T2gt 1] ("U22" +== Sc (2) 0 (Ein "kc,ci,aj,bk->abij" [:: ("g.ov",1); ("U11old",0); ("U11old",0); ("U11old",0)]))].

