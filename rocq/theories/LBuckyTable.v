(** C61: the shipped table is a permutation group (exhaustive check of the finite data). *)
From Verif Require Import Base LBase BaseQ SSym LSym LPermDec LPermGen MBuckyTable MBucky.
Open Scope nat_scope.

Lemma bucky_length : length bucky_perm_table = 120.
Proof. vm_compute. reflexivity. Qed.

(** Certificates: two generating rows, every row as a product (row, earlier row, generator),
    the products of all rows with the generators, the inverses. *)
Definition bucky_gens : list nat := [1; 65].
Definition bucky_words : list (nat * nat * nat) := [(1, 0, 1); (65, 0, 65); (2, 1, 1); (66, 1, 65); (85, 65, 1); (3, 2, 1); (67, 2, 65); (86, 66, 1); (80, 85, 1);
  (16, 85, 65); (4, 3, 1); (68, 3, 65); (87, 67, 1); (81, 86, 1); (17, 86, 65); (75, 80, 1); (41, 80, 65); (21, 16, 1); (69, 4, 65); (88, 68, 1); (82, 87, 1); (18, 87, 65); (76, 81, 1); (42, 81, 65); (22, 17, 1); (70, 75, 1); (35, 75, 65); (46, 41, 1); (26, 21, 1); (91, 21, 65); (89, 69, 1); (83, 88, 1); (19, 88, 65); (77, 82, 1);
  (43, 82, 65); (23, 18, 1); (71, 76, 1); (36, 76, 65); (47, 42, 1); (27, 22, 1); (92, 22, 65); (9, 70, 65); (40, 35, 1); (51, 46, 1); (110, 46, 65); (6, 26, 1); (97, 26, 65); (111, 91, 1); (84, 89, 1); (15, 89, 65); (78, 83, 1); (44, 83, 65); (24, 19, 1); (72, 77, 1); (37, 77, 65); (48, 43, 1); (28, 23, 1); (93, 23, 65); (5, 71, 65); (52, 47, 1); (7, 27, 1); (98, 27, 65); (112, 92, 1); (14, 9, 1); (45, 40, 1); (31, 51, 1); (116, 51, 65); (105, 110, 1); (11, 6, 1); (106, 111, 1); (79, 84, 1); (20, 15, 1); (73, 78, 1); (38, 78, 65); (49, 44, 1); (29, 24, 1); (94, 24, 65); (53, 48, 1); (8, 28, 1); (99, 28, 65); (113, 93, 1); (10, 5, 1); (32, 52, 1);
  (117, 52, 65); (12, 7, 1); (107, 112, 1); (63, 14, 65); (50, 45, 1); (114, 45, 65); (102, 31, 65); (100, 105, 1); (59, 105, 65); (60, 11, 65); (101, 106, 1); (55, 106, 65); (74, 79, 1); (39, 79, 65); (25, 20, 1); (90, 20, 65); (54, 49, 1); (95, 29, 65); (33, 53, 1); (118, 53, 65); (13, 8, 1); (108, 113, 1); (64, 10, 65); (103, 32, 65); (61, 12, 65); (56, 107, 65); (62, 63, 1); (30, 50, 1); (115, 50, 65); (109, 114, 1); (34, 100, 65); (58, 59, 1); (96, 101, 1); (119, 54, 65); (104, 33, 65);
  (57, 108, 65)].
Definition bucky_mult : list (list nat) := [[1; 65]; [2; 66]; [3; 67]; [4; 68]; [0; 69]; [10; 71]; [11; 72]; [12; 73]; [13; 74]; [14; 70]; [15; 64]; [16; 60];
  [17; 61]; [18; 62]; [19; 63]; [20; 89]; [21; 85]; [22; 86]; [23; 87]; [24; 88]; [25; 90]; [26; 91]; [27; 92]; [28; 93]; [29; 94]; [5; 96]; [6; 97]; [7; 98]; [8;
  99]; [9; 95]; [35; 101]; [36; 102]; [37; 103]; [38; 104]; [39; 100]; [40; 75]; [41; 76]; [42; 77]; [43; 78]; [44; 79]; [45; 84]; [46; 80]; [47; 81]; [48; 82];
  [49; 83]; [50; 114]; [51; 110]; [52; 111]; [53; 112]; [54; 113]; [30; 115]; [31; 116]; [32; 117]; [33; 118]; [34; 119]; [59; 106]; [55; 107]; [56; 108]; [57;
  109]; [58; 105]; [64; 11]; [60; 12]; [61; 13]; [62; 14]; [63; 10]; [85; 0]; [86; 1]; [87; 2]; [88; 3]; [89; 4]; [65; 9]; [66; 5]; [67; 6]; [68; 7]; [69; 8];
  [70; 35]; [71; 36]; [72; 37]; [73; 38]; [74; 39]; [75; 41]; [76; 42]; [77; 43]; [78; 44]; [79; 40]; [80; 16]; [81; 17]; [82; 18]; [83; 19]; [84; 15]; [110; 20];
  [111; 21]; [112; 22]; [113; 23]; [114; 24]; [90; 29]; [91; 25]; [92; 26]; [93; 27]; [94; 28]; [95; 34]; [96; 30]; [97; 31]; [98; 32]; [99; 33]; [100; 59]; [101;
  55]; [102; 56]; [103; 57]; [104; 58]; [105; 46]; [106; 47]; [107; 48]; [108; 49]; [109; 45]; [116; 50]; [117; 51]; [118; 52]; [119; 53]; [115; 54]].
Definition bucky_inv : list nat := [0; 4; 3; 2; 1; 11; 6; 26; 21; 16; 10; 5; 25; 20; 15; 14; 9; 29; 24; 19; 13; 8; 28; 23; 18; 12; 7; 27; 22; 17; 42; 37; 32;
  52; 47; 41; 36; 31; 51; 46; 40; 35; 30; 50; 45; 44; 39; 34; 54; 49; 43; 38; 33; 53; 48; 55; 56; 57; 58; 59; 60; 61; 62; 63; 64; 65; 70; 75; 80; 85; 66; 71; 76;
  81; 86; 67; 72; 77; 82; 87; 68; 73; 78; 83; 88; 69; 74; 79; 84; 89; 90; 95; 100; 105; 110; 91; 96; 101; 106; 111; 92; 97; 102; 107; 112; 93; 98; 103; 108; 113;
  94; 99; 104; 109; 114; 116; 115; 119; 118; 117].

(** the table in normal form *)
Definition btab : list (list nat) := Eval vm_compute in bucky_perm_table.
Lemma btab_eq : bucky_perm_table = btab.
Proof. vm_compute. reflexivity. Qed.
Lemma bucky_generated : generatedb 60 bucky_perm_table bucky_gens bucky_words = true.
Proof. rewrite btab_eq. vm_compute. reflexivity. Qed.
Lemma bucky_perms : forallb (is_permb 60) bucky_perm_table = true.
Proof. rewrite btab_eq. vm_compute. reflexivity. Qed.
Lemma bucky_closed : closedb bucky_perm_table bucky_gens bucky_mult = true.
Proof. rewrite btab_eq. vm_compute. reflexivity. Qed.
Lemma bucky_inverted : invertedb 60 bucky_perm_table bucky_inv = true.
Proof. rewrite btab_eq. vm_compute. reflexivity. Qed.

Lemma bucky_group : perm_group 60 bucky_perm_table.
Proof. exact (generated_group bucky_generated bucky_perms eq_refl eq_refl bucky_closed bucky_inverted). Qed.

Fixpoint nodupb (l : list (list nat)) : bool :=
  match l with [] => true | x :: t => negb (memL x t) && nodupb t end.
Lemma nodupb_ok l : nodupb l = true -> NoDup l.
Proof.
  induction l as [|x l IH]; cbn; [constructor|]. rewrite andb_true_iff, negb_true_iff. intros [M N]. constructor; [|auto].
  intros I. apply memL_In in I. congruence.
Qed.
Lemma bucky_distinct : NoDup bucky_perm_table.
Proof. apply nodupb_ok. vm_compute. reflexivity. Qed.
