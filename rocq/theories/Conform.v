(** Conformance: the model run on the data of the repository's own tests (test/test_mat.py,
    test/test_net.py, test/test_mesh.py) and of the end of model.py.  These are tests of the model, not
    properties.  The expected tables are the literals of the test files; numbers are compared as
    [numpy.allclose] does, labels and row order exactly. *)
From Verif Require Import Num ListX Frames MatM NetM StackM MeshM ModelM SolverM Spec SpecNet SpecStack PropsStack.
Open Scope Q_scope.

(** |a - b| <= 1e-8 + 1e-5 |b| *)
Definition close (a b : Q) : bool := Qleb (Qabs (a - b)) ((1 # 100000000) + (1 # 100000) * Qabs b).
Fixpoint all2 {A B} (p : A -> B -> bool) (l : list A) (l' : list B) : bool :=
  match l, l' with [], [] => true | x :: t, y :: t' => p x y && all2 p t t' | _, _ => false end.

(** test/test_mat.py 50-61: the table that Mat(10) returns *)
Definition t_mat : qmat := mkQmat [
  mkQ (25 # 1) (1 # 1) (1 # 1) (762711 # 312500) (145862519 # 10000000) (-1908627871 # 100000000) (73869079 # 100000000) (-13480889 # 20000000) (0 # 1) (Fin (1 # 1)) PInf;
  mkQ (25 # 1) (1 # 1) (1 # 1) (67246677 # 6250000) (144474599 # 100000000) (-1783233563 # 100000000) (65127679 # 100000000) (37942013 # 50000000) (0 # 1) (Fin (1 # 1)) PInf;
  mkQ (25 # 1) (1 # 1) (1 # 1) (6422711 # 1250000) (68044561 # 20000000) (-4266903 # 1000000) (99052639 # 100000000) (-54929 # 400000) (0 # 1) (Fin (1 # 1)) PInf;
  mkQ (25 # 1) (1 # 1) (1 # 1) (44883183 # 20000000) (2127983191 # 100000000) (-192603189 # 100000000) (97697819 # 100000000) (21333921 # 100000000) (0 # 1) (Fin (1 # 1)) PInf;
  mkQ (25 # 1) (1 # 1) (1 # 1) (-381726003 # 100000000) (-2144819709 # 100000000) (109241609 # 100000000) (2949781 # 50000000) (-3119557 # 3125000) (0 # 1) (Fin (1 # 1)) PInf;
  mkQ (25 # 1) (1 # 1) (1 # 1) (145894113 # 20000000) (-2064353501 # 100000000) (699605107 # 100000000) (18649707 # 20000000) (1806039 # 5000000) (0 # 1) (Fin (1 # 1)) PInf;
  mkQ (25 # 1) (1 # 1) (1 # 1) (-39007993 # 12500000) (-2398908013 # 100000000) (1402645881 # 100000000) (93863017 # 100000000) (34492521 # 100000000) (0 # 1) (Fin (1 # 1)) PInf;
  mkQ (25 # 1) (1 # 1) (1 # 1) (489716251 # 25000000) (415774807 # 25000000) (1495792821 # 100000000) (11665989 # 12500000) (8978797 # 25000000) (0 # 1) (Fin (1 # 1)) PInf;
  mkQ (25 # 1) (1 # 1) (1 # 1) (2318313803 # 100000000) (278156751 # 20000000) (444668917 # 20000000) (8790111 # 50000000) (98442551 # 100000000) (0 # 1) (Fin (1 # 1)) PInf;
  mkQ (25 # 1) (1 # 1) (1 # 1) (-291396203 # 50000000) (1850060741 # 100000000) (2393091711 # 100000000) (42062497 # 50000000) (54064641 # 100000000) (0 # 1) (Fin (1 # 1)) PInf
  ] 50.
Example t_mat_check : mat_check (df_of t_mat) = Ok true.
Proof. vm_compute. reflexivity. Qed.

(** test/test_net.py 51-72: Net(Mat(10)) *)
Definition t_net : list conn := [
  mkConn 0 0 (25 # 2) (-25 # 2) (1167431009 # 100000000) (616069633 # 100000000) (-1908627871 # 100000000) (-67929597 # 10000000) (575295187 # 25000000) (-1908627871 # 100000000);
  mkConn 0 3 (-806427839 # 100000000) (-589623413 # 100000000) (-351633299 # 100000000) (2002193397 # 100000000) (-1908627871 # 100000000) (-351633299 # 100000000) (2002193397 # 100000000) (-192603189 # 100000000);
  mkConn 0 4 (-48584699 # 6250000) (874105637 # 100000000) (-330157597 # 100000000) (396519427 # 20000000) (-1908627871 # 100000000) (-330157597 # 100000000) (-603480573 # 20000000) (109241609 # 100000000);
  mkConn 0 9 (-401658553 # 50000000) (277512029 # 100000000) (-349335429 # 100000000) (125006039 # 6250000) (-1908627871 # 100000000) (-349335429 # 100000000) (125006039 # 6250000) (2393091711 # 100000000);
  mkConn 1 1 (25 # 2) (-25 # 2) (1890042823 # 100000000) (1093024923 # 100000000) (-1783233563 # 100000000) (261850841 # 100000000) (-32163029 # 4000000) (-1783233563 # 100000000);
  mkConn 1 2 (138749949 # 100000000) (658735173 # 100000000) (583155727 # 50000000) (124881823 # 50000000) (-1783233563 # 100000000) (583155727 # 50000000) (124881823 # 50000000) (-4266903 # 1000000);
  mkConn 2 2 (25 # 2) (-25 # 2) (1751974869 # 100000000) (168569683 # 100000000) (-4266903 # 1000000) (-724341109 # 100000000) (63984491 # 12500000) (-4266903 # 1000000);
  mkConn 3 3 (25 # 2) (-25 # 2) (28912773 # 2000000) (299332151 # 12500000) (-192603189 # 100000000) (-49840341 # 5000000) (74452367 # 4000000) (-192603189 # 100000000);
  mkConn 3 4 (-142273003 # 25000000) (850087389 # 100000000) (-41446821 # 12500000) (2006573549 # 100000000) (-192603189 # 100000000) (-41446821 # 12500000) (-2993426451 # 100000000) (109241609 # 100000000);
  mkConn 3 9 (-581002817 # 100000000) (71197997 # 25000000) (-85802791 # 25000000) (501008127 # 25000000) (-192603189 # 100000000) (-85802791 # 25000000) (501008127 # 25000000) (2393091711 # 100000000);
  mkConn 4 4 (25 # 2) (-25 # 2) (-153990737 # 50000000) (-3392642511 # 100000000) (109241609 # 100000000) (-113867633 # 25000000) (-896996907 # 100000000) (109241609 # 100000000);
  mkConn 4 5 (342731873 # 100000000) (-584983393 # 50000000) (-361506323 # 100000000) (-1243477313 # 50000000) (109241609 # 100000000) (-361506323 # 100000000) (-1243477313 # 50000000) (699605107 # 100000000);
  mkConn 4 6 (13711009 # 5000000) (-11396239 # 20000000) (-365548213 # 100000000) (-2418562263 # 100000000) (109241609 # 100000000) (-365548213 # 100000000) (-2418562263 # 100000000) (1402645881 # 100000000);
  mkConn 4 9 (422661151 # 50000000) (298290327 # 100000000) (-331855687 # 100000000) (-93395927 # 3125000) (109241609 # 100000000) (-331855687 # 100000000) (62854073 # 3125000) (2393091711 # 100000000);
  mkConn 5 5 (25 # 2) (-25 # 2) (1895077253 # 100000000) (-403210939 # 25000000) (699605107 # 100000000) (-218068061 # 50000000) (-2515863247 # 100000000) (699605107 # 100000000);
  mkConn 6 6 (25 # 2) (-25 # 2) (861223773 # 100000000) (-983875753 # 50000000) (1402645881 # 100000000) (-1485351661 # 100000000) (-2830064519 # 100000000) (1402645881 # 100000000);
  mkConn 7 7 (25 # 2) (-25 # 2) (312546391 # 10000000) (1056019541 # 50000000) (1495792821 # 100000000) (396133049 # 50000000) (1214159373 # 100000000) (1495792821 # 100000000);
  mkConn 7 8 (18780847 # 4000000) (44792103 # 10000000) (479411863 # 20000000) (915864321 # 50000000) (1495792821 # 100000000) (479411863 # 20000000) (915864321 # 50000000) (444668917 # 20000000);
  mkConn 8 8 (25 # 2) (-25 # 2) (2538066581 # 100000000) (1310657819 # 50000000) (444668917 # 20000000) (8197504 # 390625) (160251871 # 100000000) (444668917 # 20000000);
  mkConn 9 9 (25 # 2) (-25 # 2) (93754003 # 20000000) (1262934379 # 50000000) (2393091711 # 100000000) (-1634354827 # 100000000) (46970109 # 4000000) (2393091711 # 100000000)
  ].
(** test/test_net.py 105-126: Stack(Mat(10), Net(Mat(10))) *)
Definition t_stack : list conn := [
  mkConn 0 0 (25 # 2) (-25 # 2) (1167431009 # 100000000) (616069633 # 100000000) (1 # 2) (-67929597 # 10000000) (575295187 # 25000000) (1 # 2);
  mkConn 0 3 (-806427839 # 100000000) (-589623413 # 100000000) (-351633299 # 100000000) (2002193397 # 100000000) (1 # 2) (-351633299 # 100000000) (2002193397 # 100000000) (3 # 2);
  mkConn 0 4 (-48584699 # 6250000) (874105637 # 100000000) (-330157597 # 100000000) (396519427 # 20000000) (1 # 2) (-330157597 # 100000000) (-603480573 # 20000000) (5 # 2);
  mkConn 0 9 (-401658553 # 50000000) (277512029 # 100000000) (-349335429 # 100000000) (125006039 # 6250000) (1 # 2) (-349335429 # 100000000) (125006039 # 6250000) (7 # 2);
  mkConn 1 1 (25 # 2) (-25 # 2) (1890042823 # 100000000) (1093024923 # 100000000) (1 # 2) (261850841 # 100000000) (-32163029 # 4000000) (1 # 2);
  mkConn 1 2 (138749949 # 100000000) (658735173 # 100000000) (583155727 # 50000000) (124881823 # 50000000) (1 # 2) (583155727 # 50000000) (124881823 # 50000000) (3 # 2);
  mkConn 2 2 (25 # 2) (-25 # 2) (1751974869 # 100000000) (168569683 # 100000000) (3 # 2) (-724341109 # 100000000) (63984491 # 12500000) (3 # 2);
  mkConn 3 3 (25 # 2) (-25 # 2) (28912773 # 2000000) (299332151 # 12500000) (3 # 2) (-49840341 # 5000000) (74452367 # 4000000) (3 # 2);
  mkConn 3 4 (-142273003 # 25000000) (850087389 # 100000000) (-41446821 # 12500000) (2006573549 # 100000000) (3 # 2) (-41446821 # 12500000) (-2993426451 # 100000000) (5 # 2);
  mkConn 3 9 (-581002817 # 100000000) (71197997 # 25000000) (-85802791 # 25000000) (501008127 # 25000000) (3 # 2) (-85802791 # 25000000) (501008127 # 25000000) (7 # 2);
  mkConn 4 4 (25 # 2) (-25 # 2) (-153990737 # 50000000) (-3392642511 # 100000000) (5 # 2) (-113867633 # 25000000) (-896996907 # 100000000) (5 # 2);
  mkConn 4 5 (342731873 # 100000000) (-584983393 # 50000000) (-361506323 # 100000000) (-1243477313 # 50000000) (5 # 2) (-361506323 # 100000000) (-1243477313 # 50000000) (7 # 2);
  mkConn 4 6 (13711009 # 5000000) (-11396239 # 20000000) (-365548213 # 100000000) (-2418562263 # 100000000) (5 # 2) (-365548213 # 100000000) (-2418562263 # 100000000) (7 # 2);
  mkConn 4 9 (422661151 # 50000000) (298290327 # 100000000) (-331855687 # 100000000) (-93395927 # 3125000) (5 # 2) (-331855687 # 100000000) (62854073 # 3125000) (7 # 2);
  mkConn 5 5 (25 # 2) (-25 # 2) (1895077253 # 100000000) (-403210939 # 25000000) (7 # 2) (-218068061 # 50000000) (-2515863247 # 100000000) (7 # 2);
  mkConn 6 6 (25 # 2) (-25 # 2) (861223773 # 100000000) (-983875753 # 50000000) (7 # 2) (-1485351661 # 100000000) (-2830064519 # 100000000) (7 # 2);
  mkConn 7 7 (25 # 2) (-25 # 2) (312546391 # 10000000) (1056019541 # 50000000) (1 # 2) (396133049 # 50000000) (1214159373 # 100000000) (1 # 2);
  mkConn 7 8 (18780847 # 4000000) (44792103 # 10000000) (479411863 # 20000000) (915864321 # 50000000) (1 # 2) (479411863 # 20000000) (915864321 # 50000000) (3 # 2);
  mkConn 8 8 (25 # 2) (-25 # 2) (2538066581 # 100000000) (1310657819 # 50000000) (3 # 2) (8197504 # 390625) (160251871 # 100000000) (3 # 2);
  mkConn 9 9 (25 # 2) (-25 # 2) (93754003 # 20000000) (1262934379 # 50000000) (7 # 2) (-1634354827 # 100000000) (46970109 # 4000000) (7 # 2)
  ].
(** test/test_mesh.py 51-92: Mesh(Net(Mat(10))) *)
Definition t_mesh : list node := [
  mkNode 0 (-25 # 2) (-67929597 # 10000000) (575295187 # 25000000) (-1908627871 # 100000000) 1 0;
  mkNode 0 (-806427839 # 100000000) (-351633299 # 100000000) (2002193397 # 100000000) (-1908627871 # 100000000) 2 12;
  mkNode 0 (-401658553 # 50000000) (-349335429 # 100000000) (125006039 # 6250000) (-1908627871 # 100000000) 3 36;
  mkNode 0 (-48584699 # 6250000) (-330157597 # 100000000) (396519427 # 20000000) (-1908627871 # 100000000) 4 21;
  mkNode 0 (25 # 2) (1167431009 # 100000000) (616069633 # 100000000) (-1908627871 # 100000000) 0 4;
  mkNode 1 (-25 # 2) (261850841 # 100000000) (-32163029 # 4000000) (-1783233563 # 100000000) 6 5;
  mkNode 1 (138749949 # 100000000) (583155727 # 50000000) (124881823 # 50000000) (-1783233563 # 100000000) 7 9;
  mkNode 1 (25 # 2) (1890042823 # 100000000) (1093024923 # 100000000) (-1783233563 # 100000000) 5 7;
  mkNode 2 (-25 # 2) (-724341109 # 100000000) (63984491 # 12500000) (-4266903 # 1000000) 9 8;
  mkNode 2 (658735173 # 100000000) (583155727 # 50000000) (124881823 # 50000000) (-4266903 # 1000000) 10 6;
  mkNode 2 (25 # 2) (1751974869 # 100000000) (168569683 # 100000000) (-4266903 # 1000000) 8 10;
  mkNode 3 (-25 # 2) (-49840341 # 5000000) (74452367 # 4000000) (-192603189 # 100000000) 12 11;
  mkNode 3 (-589623413 # 100000000) (-351633299 # 100000000) (2002193397 # 100000000) (-192603189 # 100000000) 13 1;
  mkNode 3 (-581002817 # 100000000) (-85802791 # 25000000) (501008127 # 25000000) (-192603189 # 100000000) 14 37;
  mkNode 3 (-142273003 # 25000000) (-41446821 # 12500000) (2006573549 # 100000000) (-192603189 # 100000000) 15 20;
  mkNode 3 (25 # 2) (28912773 # 2000000) (299332151 # 12500000) (-192603189 # 100000000) 11 15;
  mkNode 4 (-25 # 2) (-113867633 # 25000000) (-896996907 # 100000000) (109241609 # 100000000) 17 16;
  mkNode 4 (13711009 # 5000000) (-365548213 # 100000000) (-2418562263 # 100000000) (109241609 # 100000000) 18 27;
  mkNode 4 (342731873 # 100000000) (-361506323 # 100000000) (-1243477313 # 50000000) (109241609 # 100000000) 19 24;
  mkNode 4 (422661151 # 50000000) (-331855687 # 100000000) (-93395927 # 3125000) (109241609 # 100000000) 20 38;
  mkNode 4 (850087389 # 100000000) (-41446821 # 12500000) (-2993426451 # 100000000) (109241609 # 100000000) 21 14;
  mkNode 4 (874105637 # 100000000) (-330157597 # 100000000) (-603480573 # 20000000) (109241609 # 100000000) 22 3;
  mkNode 4 (25 # 2) (-153990737 # 50000000) (-3392642511 # 100000000) (109241609 # 100000000) 16 22;
  mkNode 5 (-25 # 2) (-218068061 # 50000000) (-2515863247 # 100000000) (699605107 # 100000000) 24 23;
  mkNode 5 (-584983393 # 50000000) (-361506323 # 100000000) (-1243477313 # 50000000) (699605107 # 100000000) 25 18;
  mkNode 5 (25 # 2) (1895077253 # 100000000) (-403210939 # 25000000) (699605107 # 100000000) 23 25;
  mkNode 6 (-25 # 2) (-1485351661 # 100000000) (-2830064519 # 100000000) (1402645881 # 100000000) 27 26;
  mkNode 6 (-11396239 # 20000000) (-365548213 # 100000000) (-2418562263 # 100000000) (1402645881 # 100000000) 28 17;
  mkNode 6 (25 # 2) (861223773 # 100000000) (-983875753 # 50000000) (1402645881 # 100000000) 26 28;
  mkNode 7 (-25 # 2) (396133049 # 50000000) (1214159373 # 100000000) (1495792821 # 100000000) 30 29;
  mkNode 7 (18780847 # 4000000) (479411863 # 20000000) (915864321 # 50000000) (1495792821 # 100000000) 31 33;
  mkNode 7 (25 # 2) (312546391 # 10000000) (1056019541 # 50000000) (1495792821 # 100000000) 29 31;
  mkNode 8 (-25 # 2) (8197504 # 390625) (160251871 # 100000000) (444668917 # 20000000) 33 32;
  mkNode 8 (44792103 # 10000000) (479411863 # 20000000) (915864321 # 50000000) (444668917 # 20000000) 34 30;
  mkNode 8 (25 # 2) (2538066581 # 100000000) (1310657819 # 50000000) (444668917 # 20000000) 32 34;
  mkNode 9 (-25 # 2) (-1634354827 # 100000000) (46970109 # 4000000) (2393091711 # 100000000) 36 35;
  mkNode 9 (277512029 # 100000000) (-349335429 # 100000000) (125006039 # 6250000) (2393091711 # 100000000) 37 2;
  mkNode 9 (71197997 # 25000000) (-85802791 # 25000000) (501008127 # 25000000) (2393091711 # 100000000) 38 13;
  mkNode 9 (298290327 # 100000000) (-331855687 # 100000000) (62854073 # 3125000) (2393091711 # 100000000) 39 19;
  mkNode 9 (25 # 2) (93754003 # 20000000) (1262934379 # 50000000) (2393091711 # 100000000) 35 39
  ].

Definition same_conn (c d : conn) : bool :=
  Z.eqb (cA c) (cA d) && Z.eqb (cB c) (cB d) && close (csA c) (csA d) && close (csB c) (csB d) &&
  close (cxA c) (cxA d) && close (cyA c) (cyA d) && close (czA c) (czA d) &&
  close (cxB c) (cxB d) && close (cyB c) (cyB d) && close (czB c) (czB d).
Definition same_node (c d : node) : bool :=
  Z.eqb (nf c) (nf d) && close (ns c) (ns d) && close (nx c) (nx d) && close (ny c) (ny d) && close (nz c) (nz d) &&
  Z.eqb (nbeam c) (nbeam d) && Z.eqb (ncons c) (ncons d).
Definition same_net (t : net_df) (l : list conn) : bool :=
  all2 (fun r p => Z.eqb (fst r) (fst p) && same_conn (snd r) (snd p)) (n_rows t) (enum l) && n_int t &&
  match n_attrs t with mkAttrs (Some n) (Some (Fin s)) (Some true) None => Z.eqb n 10 && Qeqb s 50 | _ => false end.

(** test/test_net.py 45-81 *)
Definition r_net : res net_df := Eval vm_compute in net_new t_mat true None.
Definition r_conform_net : bool := Eval vm_compute in match r_net with Ok t => same_net t t_net | Exn _ => false end.
Example conform_net : r_conform_net = true.
Proof. reflexivity. Qed.
(** test/test_net.py 99-135: Stack(Mat(10), Net(Mat(10))), the linear program being solved by a sweep *)
Definition r_conform_stack : bool := Eval vm_compute in
  match (do t <- r_net; stack_new ex_greedy t_mat t None) with Ok (st, _) => same_net st t_stack | Exn _ => false end.
Example conform_stack : r_conform_stack = true.
Proof. reflexivity. Qed.
(** test/test_mesh.py 45-102: Mesh(Net(Mat(10))) *)
Definition r_conform_mesh : bool := Eval vm_compute in
  match (do t <- r_net; mesh_new t) with
  | Ok g => all2 (fun r p => Z.eqb (fst r) (fst p) && same_node (snd r) (snd p)) (g_rows g) (enum t_mesh) && g_intf g && g_intl g
  | Exn _ => false end.
Example conform_mesh : r_conform_mesh = true.
Proof. reflexivity. Qed.


(** the three matrices printed in the documentation of [stiffness] (model.py 84-114): 4 / pi times K for one
    fiber of length, width and thickness 1; its place and direction do not matter *)
Definition t_one (G E : num) : qmat := mkQmat [mkQ 1 1 1 0 0 0 1 0 0 G E] 50.
Definition t_K (G E : num) : list (list num) :=
  match (do t <- net_new (t_one G E) true None; do g <- mesh_new t; stiffness (t_one G E) g None None 1) with
  | Ok K => map (fun r => map (fun c => nmul (Fin (4 / np_pi)) (entry K r c)) (seq 0 4)) (seq 0 4)
  | Exn _ => []
  end.
Definition close_num (a b : num) : bool :=
  match a, b with Fin x, Fin y => close x y | PInf, PInf | NInf, NInf | NaN, NaN => true | _, _ => false end.
Definition same_matrix : list (list num) -> list (list num) -> bool := all2 (all2 close_num).
Notation F x := (Fin x) (only parsing).
Example conform_linear : same_matrix (t_K (Fin 1) PInf)
  [[F 1; F (1 # 2); F (-1 # 1); F (1 # 2)]; [F (1 # 2); PInf; F (-1 # 2); NInf];
   [F (-1 # 1); F (-1 # 2); F 1; F (-1 # 2)]; [F (1 # 2); NInf; F (-1 # 2); PInf]] = true.
Proof. vm_cast_no_check (eq_refl true). Qed.
Example conform_timoshenko : same_matrix (t_K (Fin 2) (Fin 2))
  [[F 1; F (1 # 2); F (-1 # 1); F (1 # 2)]; [F (1 # 2); F (133333333 # 100000000); F (-1 # 2); F (-83333333 # 100000000)];
   [F (-1 # 1); F (-1 # 2); F 1; F (-1 # 2)]; [F (1 # 2); F (-83333333 # 100000000); F (-1 # 2); F (133333333 # 100000000)]] = true.
Proof. vm_cast_no_check (eq_refl true). Qed.
Example conform_euler : same_matrix (t_K (Fin 1000000000000) (Fin 12))
  [[F 12; F 6; F (-12 # 1); F 6]; [F 6; F 4; F (-6 # 1); F 2];
   [F (-12 # 1); F (-6 # 1); F 12; F (-6 # 1)]; [F 6; F 2; F (-6 # 1); F 4]] = true.
Proof. vm_cast_no_check (eq_refl true). Qed.


(** ** Mat(10): the generator of numpy with its default seed
    numpy.random.seed(0) starts the 32 bit Mersenne twister; a draw of uniform(-0.5, 0.5) takes 53 bits. *)
Open Scope Z_scope.
Definition mask32 (x : Z) : Z := Z.land x 4294967295.
Fixpoint mt_seed (n : nat) (i x : Z) : list Z :=
  match n with
  | O => []
  | S n' => x :: mt_seed n' (i + 1) (mask32 (1812433253 * Z.lxor x (Z.shiftr x 30) + i))
  end.
(** the window of the last 624 words; next word *)
Definition mt_next (w : list Z) : Z * list Z :=
  let y := Z.lor (Z.land (nth 0 w 0) 2147483648) (Z.land (nth 1 w 0) 2147483647) in
  let x := Z.lxor (Z.lxor (nth 397 w 0) (Z.shiftr y 1)) (if Z.odd y then 2567483615 else 0) in
  let t := Z.lxor x (Z.shiftr x 11) in
  let t := Z.lxor t (Z.land (Z.shiftl t 7) 2636928640) in
  let t := Z.lxor t (Z.land (Z.shiftl t 15) 4022730752) in
  (Z.lxor t (Z.shiftr t 18), tl w ++ [x]).
Definition mt_draw (w : list Z) : Q * list Z :=
  let '(a, w) := mt_next w in
  let '(b, w) := mt_next w in
  (Qred (((Z.shiftr a 5 * 67108864 + Z.shiftr b 6) # 9007199254740992) - (1 # 2))%Q, w).
Definition mt : rng := mkRng (list Z) (fun k => mt_seed 624 1 (mask32 k)) mt_draw.
Open Scope Q_scope.
(** cos and sin by their series, rounded to 60 bits *)
Definition round60 (x : Q) : Q := Qfloor (x * (1152921504606846976 # 1)) # 1152921504606846976.
Fixpoint series (n : nat) (k : Z) (x2 : Q) : Q :=
  match n with O => 1 | S n' => round60 (1 - x2 / inject_Z (k * (k + 1)) * series n' (k + 2) x2) end.
Definition t_cos (x : Q) : Q := let y := round60 x in series 14 1 (round60 (y * y)).
Definition t_sin (x : Q) : Q := let y := round60 x in round60 (y * series 14 2 (round60 (y * y))).
Definition t_params (n : Z) : mat_params := mkParams n 25 1 1 50 np_pi 0 (Fin 1) PInf (Some 0%Z).
Definition fin_or0 (x : num) : Q := match x with Fin q => q | _ => 0 end.
Definition to_q (d : mat_df) : qmat :=
  mkQmat (map (fun r => let f := snd r in mkQ (fin_or0 (fl f)) (fin_or0 (fb f)) (fin_or0 (fh f)) (fin_or0 (fx f)) (fin_or0 (fy f)) (fin_or0 (fz f))
    (fin_or0 (fu f)) (fin_or0 (fv f)) (fin_or0 (fw f)) (fG f) (fE f)) (m_rows d)) 50.
Definition t_gen (n : Z) : qmat := match mat_new mt t_cos t_sin (t_params n) [] [] with Ok (d, _) => to_q d | Exn _ => mkQmat [] 0 end.
Definition same_fiber (f g : qfiber) : bool :=
  close (ql f) (ql g) && close (qb f) (qb g) && close (qh f) (qh g) && close (qx f) (qx g) && close (qy f) (qy g) && close (qz f) (qz g) &&
  close (qu f) (qu g) && close (qv f) (qv g) && close (qw f) (qw g) && neqb (qG f) (qG g) && neqb (qE f) (qE g).
(** test/test_mat.py 44-68 *)
Definition r_conform_mat : bool := Eval vm_compute in all2 same_fiber (q_rows (t_gen 10)) (q_rows t_mat).
Example conform_mat : r_conform_mat = true.
Proof. reflexivity. Qed.
