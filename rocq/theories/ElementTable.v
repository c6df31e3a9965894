(** The element table of PeriodicTable.cc:215-3457 fill_pt_backup, extracted from
    the assignments there; radius, charge and the isotope flag are left out.  A
    decimal number is its digits and the number of decimals. *)
From Coq Require Import Ascii String List ZArith.
Import ListNotations.
Local Open Scope Z_scope.
Local Open Scope string_scope.

(** models AtomType.h:25-36 *)
Record element : Type := mkEl { el_symbol : string; el_name : string; el_z : Z; el_mass : Z * nat; el_xsf : Z * nat; el_nsf : Z * nat }.
(** models PeriodicTable.cc:215-3457 *)
Definition elements : list element := [
  mkEl "H" "Hydrogen" 1 (1007947, 6%nat) (1, 0%nat) ((-37409), 4%nat);
  mkEl "1-H" "1-Hydrogen" 1 (10078250321, 10%nat) (1, 0%nat) ((-37423), 4%nat);
  mkEl "D" "Deuterium" 1 (2014101778, 9%nat) (1, 0%nat) (6674, 3%nat);
  mkEl "T" "Tritium" 1 (30160492675, 10%nat) (1, 0%nat) (4792, 3%nat);
  mkEl "He" "Helium" 2 (40026022, 7%nat) (2, 0%nat) (3263, 3%nat);
  mkEl "3-He" "3-Helium" 2 (30160293097, 10%nat) (2, 0%nat) (574, 2%nat);
  mkEl "4-He" "4-Helium" 2 (40026032497, 10%nat) (2, 0%nat) (326, 2%nat);
  mkEl "Li" "Lithium" 3 (69412, 4%nat) (3, 0%nat) ((-1903), 3%nat);
  mkEl "6-Li" "6-Lithium" 3 (60151223, 7%nat) (3, 0%nat) (2, 0%nat);
  mkEl "7-Li" "7-Lithium" 3 (7016004, 6%nat) (3, 0%nat) ((-222), 2%nat);
  mkEl "Be" "Beryllium" 4 (90121823, 7%nat) (4, 0%nat) (7791, 3%nat);
  mkEl "B" "Boron" 5 (108117, 4%nat) (5, 0%nat) (5304, 3%nat);
  mkEl "10-B" "10-Boron" 5 (10012937, 6%nat) (5, 0%nat) ((-2), 1%nat);
  mkEl "11-B" "11-Boron" 5 (110093055, 7%nat) (5, 0%nat) (665, 2%nat);
  mkEl "C" "Carbon" 6 (1201078, 5%nat) (6, 0%nat) (6648413, 6%nat);
  mkEl "12-C" "12-Carbon" 6 (12, 0%nat) (6, 0%nat) (66535, 4%nat);
  mkEl "13-C" "13-Carbon" 6 (130033548378, 10%nat) (6, 0%nat) (619, 2%nat);
  mkEl "N" "Nitrogen" 7 (1400672, 5%nat) (7, 0%nat) (936, 2%nat);
  mkEl "14-N" "14-Nitrogen" 7 (140030740052, 10%nat) (7, 0%nat) (937, 2%nat);
  mkEl "15-N" "15-Nitrogen" 7 (150001088984, 10%nat) (7, 0%nat) (644, 2%nat);
  mkEl "O" "Oxygen" 8 (1599943, 5%nat) (8, 0%nat) (58054, 4%nat);
  mkEl "16-O" "16-Oxygen" 8 (159949146221, 10%nat) (8, 0%nat) (5805, 3%nat);
  mkEl "17-O" "17-Oxygen" 8 (169991315, 7%nat) (8, 0%nat) (56, 1%nat);
  mkEl "18-O" "18-Oxygen" 8 (179991604, 7%nat) (8, 0%nat) (584, 2%nat);
  mkEl "F" "Fluorine" 9 (1899840325, 8%nat) (9, 0%nat) (565412, 5%nat);
  mkEl "Ne" "Neon" 10 (2017976, 5%nat) (10, 0%nat) (45666, 4%nat);
  mkEl "20-Ne" "20-Neon" 10 (199924401759, 10%nat) (10, 0%nat) (4631, 3%nat);
  mkEl "21-Ne" "21-Neon" 10 (2099384674, 8%nat) (10, 0%nat) (666, 2%nat);
  mkEl "22-Ne" "22-Neon" 10 (2199138551, 8%nat) (10, 0%nat) (387, 2%nat);
  mkEl "Na" "Sodium" 11 (229897702, 7%nat) (11, 0%nat) (3632, 3%nat);
  mkEl "Mg" "Magnesium" 12 (2430506, 5%nat) (12, 0%nat) (53754, 4%nat);
  mkEl "24-Mg" "24-Magnesium" 12 (239850419, 7%nat) (12, 0%nat) (549, 2%nat);
  mkEl "25-Mg" "25-Magnesium" 12 (2498583702, 8%nat) (12, 0%nat) (362, 2%nat);
  mkEl "26-Mg" "26-Magnesium" 12 (2598259304, 8%nat) (12, 0%nat) (489, 2%nat);
  mkEl "Al" "Aluminium" 13 (269815382, 7%nat) (13, 0%nat) (34495, 4%nat);
  mkEl "Si" "Silicon" 14 (2808553, 5%nat) (14, 0%nat) (415071, 5%nat);
  mkEl "28-Si" "28-Silicon" 14 (279769265327, 10%nat) (14, 0%nat) (4106, 3%nat);
  mkEl "29-Si" "29-Silicon" 14 (2897649472, 8%nat) (14, 0%nat) (47, 1%nat);
  mkEl "30-Si" "30-Silicon" 14 (2997377022, 8%nat) (14, 0%nat) (458, 2%nat);
  mkEl "P" "Phosphorus" 15 (309737612, 7%nat) (15, 0%nat) (5131, 3%nat);
  mkEl "S" "Sulfur" 16 (320655, 4%nat) (16, 0%nat) (28471, 4%nat);
  mkEl "32-S" "32-Sulfur" 16 (3197207069, 8%nat) (16, 0%nat) (2804, 3%nat);
  mkEl "33-S" "33-Sulfur" 16 (329714585, 7%nat) (16, 0%nat) (474, 2%nat);
  mkEl "34-S" "34-Sulfur" 16 (3396786683, 8%nat) (16, 0%nat) (348, 2%nat);
  mkEl "36-S" "36-Sulfur" 16 (3596708088, 8%nat) (16, 0%nat) (3, 0%nat);
  mkEl "Cl" "Chlorine" 17 (354532, 4%nat) (17, 0%nat) (957928, 5%nat);
  mkEl "35-Cl" "35-Chlorine" 17 (3496885271, 8%nat) (17, 0%nat) (117, 1%nat);
  mkEl "37-Cl" "37-Chlorine" 17 (369659026, 7%nat) (17, 0%nat) (308, 2%nat);
  mkEl "Ar" "Argon" 18 (399481, 4%nat) (18, 0%nat) (19096, 4%nat);
  mkEl "36-Ar" "36-Argon" 18 (3596754628, 8%nat) (18, 0%nat) (249, 1%nat);
  mkEl "38-Ar" "38-Argon" 18 (379627322, 7%nat) (18, 0%nat) (35, 1%nat);
  mkEl "40-Ar" "40-Argon" 18 (39962383123, 9%nat) (18, 0%nat) (17, 1%nat);
  mkEl "K" "Potassium" 19 (3909831, 5%nat) (19, 0%nat) (3672, 3%nat);
  mkEl "39-K" "39-Potassium" 19 (389637069, 7%nat) (19, 0%nat) (379, 2%nat);
  mkEl "40-K" "40-Potassium" 19 (3996399867, 8%nat) (19, 0%nat) (31, 1%nat);
  mkEl "41-K" "41-Potassium" 19 (4096182597, 8%nat) (19, 0%nat) (269, 2%nat);
  mkEl "Ca" "Calcium" 20 (400784, 4%nat) (20, 0%nat) (4702, 3%nat);
  mkEl "40-Ca" "40-Calcium" 20 (399625912, 7%nat) (20, 0%nat) (478, 2%nat);
  mkEl "42-Ca" "42-Calcium" 20 (419586183, 7%nat) (20, 0%nat) (336, 2%nat);
  mkEl "43-Ca" "43-Calcium" 20 (429587668, 7%nat) (20, 0%nat) ((-156), 2%nat);
  mkEl "44-Ca" "44-Calcium" 20 (439554811, 7%nat) (20, 0%nat) (142, 2%nat);
  mkEl "46-Ca" "46-Calcium" 20 (459536928, 7%nat) (20, 0%nat) (355, 2%nat);
  mkEl "48-Ca" "48-Calcium" 20 (47952534, 6%nat) (20, 0%nat) (39, 2%nat);
  mkEl "Sc" "Scandium" 21 (449559108, 7%nat) (21, 0%nat) (1211, 2%nat);
  mkEl "Ti" "Titanium" 22 (478671, 4%nat) (22, 0%nat) ((-337013), 5%nat);
  mkEl "46-Ti" "46-Titanium" 22 (459526295, 7%nat) (22, 0%nat) (472, 2%nat);
  mkEl "47-Ti" "47-Titanium" 22 (469517638, 7%nat) (22, 0%nat) (353, 2%nat);
  mkEl "48-Ti" "48-Titanium" 22 (479479471, 7%nat) (22, 0%nat) ((-586), 2%nat);
  mkEl "49-Ti" "49-Titanium" 22 (489478708, 7%nat) (22, 0%nat) (98, 2%nat);
  mkEl "50-Ti" "50-Titanium" 22 (499447921, 7%nat) (22, 0%nat) (588, 2%nat);
  mkEl "V" "Vanadium" 23 (5094151, 5%nat) (23, 0%nat) ((-44314), 5%nat);
  mkEl "50-V" "50-Vanadium" 23 (499471628, 7%nat) (23, 0%nat) (76, 1%nat);
  mkEl "51-V" "51-Vanadium" 23 (509439637, 7%nat) (23, 0%nat) ((-402), 3%nat);
  mkEl "Cr" "Chromium" 24 (5199616, 5%nat) (24, 0%nat) (36357, 4%nat);
  mkEl "50-Cr" "50-Chromium" 24 (499460496, 7%nat) (24, 0%nat) ((-45), 1%nat);
  mkEl "52-Cr" "52-Chromium" 24 (519405119, 7%nat) (24, 0%nat) (4914, 3%nat);
  mkEl "53-Cr" "53-Chromium" 24 (529406538, 7%nat) (24, 0%nat) ((-42), 1%nat);
  mkEl "54-Cr" "54-Chromium" 24 (539388849, 7%nat) (24, 0%nat) (455, 2%nat);
  mkEl "Mn" "Manganese" 25 (549380499, 7%nat) (25, 0%nat) ((-375018), 5%nat);
  mkEl "Fe" "Iron" 26 (558452, 4%nat) (26, 0%nat) (9452, 3%nat);
  mkEl "54-Fe" "54-Iron" 26 (539396148, 7%nat) (26, 0%nat) (42, 1%nat);
  mkEl "56-Fe" "56-Iron" 26 (559349421, 7%nat) (26, 0%nat) (101, 1%nat);
  mkEl "57-Fe" "57-Iron" 26 (569353987, 7%nat) (26, 0%nat) (23, 1%nat);
  mkEl "58-Fe" "58-Iron" 26 (579332805, 7%nat) (26, 0%nat) (15, 0%nat);
  mkEl "Co" "Cobalt" 27 (589332009, 7%nat) (27, 0%nat) (2492, 3%nat);
  mkEl "Ni" "Nickel" 28 (5869342, 5%nat) (28, 0%nat) (1031, 2%nat);
  mkEl "58-Ni" "58-Nickel" 28 (579353479, 7%nat) (28, 0%nat) (144, 1%nat);
  mkEl "60-Ni" "60-Nickel" 28 (599307906, 7%nat) (28, 0%nat) (28, 1%nat);
  mkEl "61-Ni" "61-Nickel" 28 (609310604, 7%nat) (28, 0%nat) (76, 1%nat);
  mkEl "62-Ni" "62-Nickel" 28 (619283488, 7%nat) (28, 0%nat) ((-87), 1%nat);
  mkEl "64-Ni" "64-Nickel" 28 (639279696, 7%nat) (28, 0%nat) ((-37), 2%nat);
  mkEl "Cu" "Copper" 29 (635463, 4%nat) (29, 0%nat) (77184, 4%nat);
  mkEl "63-Cu" "63-Copper" 29 (629296011, 7%nat) (29, 0%nat) (6477, 3%nat);
  mkEl "65-Cu" "65-Copper" 29 (649277937, 7%nat) (29, 0%nat) (10204, 3%nat);
  mkEl "Zn" "Zinc" 30 (654094, 4%nat) (30, 0%nat) (56805, 4%nat);
  mkEl "64-Zn" "64-Zinc" 30 (639291466, 7%nat) (30, 0%nat) (523, 2%nat);
  mkEl "66-Zn" "66-Zinc" 30 (659260368, 7%nat) (30, 0%nat) (598, 2%nat);
  mkEl "67-Zn" "67-Zinc" 30 (669271309, 7%nat) (30, 0%nat) (758, 2%nat);
  mkEl "68-Zn" "68-Zinc" 30 (679248476, 7%nat) (30, 0%nat) (604, 2%nat);
  mkEl "70-Zn" "70-Zinc" 30 (69925325, 6%nat) (30, 0%nat) (69, 1%nat);
  mkEl "Ga" "Gallium" 31 (697231, 4%nat) (31, 0%nat) (72882, 4%nat);
  mkEl "69-Ga" "69-Gallium" 31 (68925581, 6%nat) (31, 0%nat) (8043, 3%nat);
  mkEl "71-Ga" "71-Gallium" 31 (70924705, 6%nat) (31, 0%nat) (617, 2%nat);
  mkEl "Ge" "Germanium" 32 (72641, 3%nat) (32, 0%nat) (81852, 4%nat);
  mkEl "70-Ge" "70-Germanium" 32 (699242504, 7%nat) (32, 0%nat) (10, 0%nat);
  mkEl "72-Ge" "72-Germanium" 32 (719220762, 7%nat) (32, 0%nat) (851, 2%nat);
  mkEl "73-Ge" "73-Germanium" 32 (729234594, 7%nat) (32, 0%nat) (502, 2%nat);
  mkEl "74-Ge" "74-Germanium" 32 (739211782, 7%nat) (32, 0%nat) (758, 2%nat);
  mkEl "76-Ge" "76-Germanium" 32 (759214027, 7%nat) (32, 0%nat) (82, 1%nat);
  mkEl "As" "Arsenic" 33 (74921602, 6%nat) (33, 0%nat) (6581, 3%nat);
  mkEl "Se" "Selenium" 34 (78963, 3%nat) (34, 0%nat) (79709, 4%nat);
  mkEl "74-Se" "74-Selenium" 34 (739224766, 7%nat) (34, 0%nat) (8, 1%nat);
  mkEl "76-Se" "76-Selenium" 34 (759192141, 7%nat) (34, 0%nat) (122, 1%nat);
  mkEl "77-Se" "77-Selenium" 34 (769199146, 7%nat) (34, 0%nat) (825, 2%nat);
  mkEl "78-Se" "78-Selenium" 34 (779173095, 7%nat) (34, 0%nat) (824, 2%nat);
  mkEl "80-Se" "80-Selenium" 34 (799165218, 7%nat) (34, 0%nat) (748, 2%nat);
  mkEl "82-Se" "82-Selenium" 34 (819167, 4%nat) (34, 0%nat) (634, 2%nat);
  mkEl "Br" "Bromine" 35 (799041, 4%nat) (35, 0%nat) (6792, 3%nat);
  mkEl "79-Br" "79-Bromine" 35 (789183376, 7%nat) (35, 0%nat) (679, 2%nat);
  mkEl "81-Br" "81-Bromine" 35 (80916291, 6%nat) (35, 0%nat) (678, 2%nat);
  mkEl "Kr" "Krypton" 36 (837982, 4%nat) (36, 0%nat) (7812, 3%nat);
  mkEl "86-Kr" "86-Krypton" 36 (859106103, 7%nat) (36, 0%nat) (807, 2%nat);
  mkEl "Rb" "Rubidium" 37 (8546783, 5%nat) (37, 0%nat) (7082, 3%nat);
  mkEl "85-Rb" "85-Rubidium" 37 (849117893, 7%nat) (37, 0%nat) (707, 2%nat);
  mkEl "87-Rb" "87-Rubidium" 37 (869091835, 7%nat) (37, 0%nat) (727, 2%nat);
  mkEl "Sr" "Strontium" 38 (87621, 3%nat) (38, 0%nat) (7022, 3%nat);
  mkEl "84-Sr" "84-Strontium" 38 (83913425, 6%nat) (38, 0%nat) (5, 0%nat);
  mkEl "86-Sr" "86-Strontium" 38 (859092624, 7%nat) (38, 0%nat) (568, 2%nat);
  mkEl "87-Sr" "87-Strontium" 38 (869088793, 7%nat) (38, 0%nat) (741, 2%nat);
  mkEl "88-Sr" "88-Strontium" 38 (879056143, 7%nat) (38, 0%nat) (716, 2%nat);
  mkEl "Y" "Yttrium" 39 (88905852, 6%nat) (39, 0%nat) (7752, 3%nat);
  mkEl "Zr" "Zirconium" 40 (912242, 4%nat) (40, 0%nat) (7163, 3%nat);
  mkEl "90-Zr" "90-Zirconium" 40 (899047037, 7%nat) (40, 0%nat) (65, 1%nat);
  mkEl "91-Zr" "91-Zirconium" 40 (90905645, 6%nat) (40, 0%nat) (88, 1%nat);
  mkEl "92-Zr" "92-Zirconium" 40 (919050401, 7%nat) (40, 0%nat) (75, 1%nat);
  mkEl "94-Zr" "94-Zirconium" 40 (939063158, 7%nat) (40, 0%nat) (83, 1%nat);
  mkEl "96-Zr" "96-Zirconium" 40 (95908276, 6%nat) (40, 0%nat) (55, 1%nat);
  mkEl "Nb" "Niobium" 41 (92906382, 6%nat) (41, 0%nat) (70543, 4%nat);
  mkEl "Mo" "Molybdenum" 42 (95942, 3%nat) (42, 0%nat) (67152, 4%nat);
  mkEl "92-Mo" "92-Molybdenum" 42 (9190681, 5%nat) (42, 0%nat) (693, 2%nat);
  mkEl "94-Mo" "94-Molybdenum" 42 (939050876, 7%nat) (42, 0%nat) (682, 2%nat);
  mkEl "95-Mo" "95-Molybdenum" 42 (949058415, 7%nat) (42, 0%nat) (693, 2%nat);
  mkEl "96-Mo" "96-Molybdenum" 42 (959046789, 7%nat) (42, 0%nat) (622, 2%nat);
  mkEl "97-Mo" "97-Molybdenum" 42 (96906021, 6%nat) (42, 0%nat) (726, 2%nat);
  mkEl "98-Mo" "98-Molybdenum" 42 (979054078, 7%nat) (42, 0%nat) (66, 1%nat);
  mkEl "100-Mo" "100-Molybdenum" 42 (99907477, 6%nat) (42, 0%nat) (675, 2%nat);
  mkEl "Tc" "Technetium" 43 (98, 0%nat) (43, 0%nat) (683, 2%nat);
  mkEl "Ru" "Ruthenium" 44 (101072, 3%nat) (44, 0%nat) (7022, 3%nat);
  mkEl "Rh" "Rhodium" 45 (102905502, 6%nat) (45, 0%nat) (5904, 3%nat);
  mkEl "Pd" "Palladium" 46 (106421, 3%nat) (46, 0%nat) (5916, 3%nat);
  mkEl "102-Pd" "102-Palladium" 46 (101905608, 6%nat) (46, 0%nat) (77, 1%nat);
  mkEl "104-Pd" "104-Palladium" 46 (103904035, 6%nat) (46, 0%nat) (77, 1%nat);
  mkEl "105-Pd" "105-Palladium" 46 (104905084, 6%nat) (46, 0%nat) (55, 1%nat);
  mkEl "106-Pd" "106-Palladium" 46 (105903483, 6%nat) (46, 0%nat) (64, 1%nat);
  mkEl "108-Pd" "108-Palladium" 46 (107903894, 6%nat) (46, 0%nat) (41, 1%nat);
  mkEl "110-Pd" "110-Palladium" 46 (109905152, 6%nat) (46, 0%nat) (77, 1%nat);
  mkEl "Ag" "Silver" 47 (10786822, 5%nat) (47, 0%nat) (59227, 4%nat);
  mkEl "107-Ag" "107-Silver" 47 (106905093, 6%nat) (47, 0%nat) (7555, 3%nat);
  mkEl "109-Ag" "109-Silver" 47 (108904756, 6%nat) (47, 0%nat) (4165, 3%nat);
  mkEl "Cd" "Cadmium" 48 (1124118, 4%nat) (48, 0%nat) (4835, 3%nat);
  mkEl "106-Cd" "106-Cadmium" 48 (105906458, 6%nat) (48, 0%nat) (5, 0%nat);
  mkEl "108-Cd" "108-Cadmium" 48 (107904183, 6%nat) (48, 0%nat) (531, 2%nat);
  mkEl "110-Cd" "110-Cadmium" 48 (109903006, 6%nat) (48, 0%nat) (578, 2%nat);
  mkEl "111-Cd" "111-Cadmium" 48 (110904182, 6%nat) (48, 0%nat) (647, 2%nat);
  mkEl "112-Cd" "112-Cadmium" 48 (1119027572, 7%nat) (48, 0%nat) (634, 2%nat);
  mkEl "113-Cd" "113-Cadmium" 48 (1129044009, 7%nat) (48, 0%nat) ((-8), 0%nat);
  mkEl "114-Cd" "114-Cadmium" 48 (1139033581, 7%nat) (48, 0%nat) (748, 2%nat);
  mkEl "116-Cd" "116-Cadmium" 48 (115904755, 6%nat) (48, 0%nat) (626, 2%nat);
  mkEl "In" "Indium" 49 (1148183, 4%nat) (49, 0%nat) (40652, 4%nat);
  mkEl "113-In" "113-Indium" 49 (112904061, 6%nat) (49, 0%nat) (539, 2%nat);
  mkEl "115-In" "115-Indium" 49 (114903878, 6%nat) (49, 0%nat) (4, 0%nat);
  mkEl "Sn" "Tin" 50 (1187107, 4%nat) (50, 0%nat) (62252, 4%nat);
  mkEl "112-Sn" "112-Tin" 50 (111904821, 6%nat) (50, 0%nat) (6, 0%nat);
  mkEl "114-Sn" "114-Tin" 50 (113902782, 6%nat) (50, 0%nat) (6, 0%nat);
  mkEl "115-Sn" "115-Tin" 50 (114903346, 6%nat) (50, 0%nat) (6, 0%nat);
  mkEl "116-Sn" "116-Tin" 50 (115901744, 6%nat) (50, 0%nat) (61, 1%nat);
  mkEl "117-Sn" "117-Tin" 50 (116902954, 6%nat) (50, 0%nat) (659, 2%nat);
  mkEl "118-Sn" "118-Tin" 50 (117901606, 6%nat) (50, 0%nat) (623, 2%nat);
  mkEl "119-Sn" "119-Tin" 50 (118903309, 6%nat) (50, 0%nat) (628, 2%nat);
  mkEl "120-Sn" "120-Tin" 50 (1199021966, 7%nat) (50, 0%nat) (667, 2%nat);
  mkEl "122-Sn" "122-Tin" 50 (1219034401, 7%nat) (50, 0%nat) (593, 2%nat);
  mkEl "124-Sn" "124-Tin" 50 (1239052746, 7%nat) (50, 0%nat) (615, 2%nat);
  mkEl "Sb" "Antimony" 51 (1217601, 4%nat) (51, 0%nat) (5573, 3%nat);
  mkEl "121-Sb" "121-Antimony" 51 (120903818, 6%nat) (51, 0%nat) (571, 2%nat);
  mkEl "123-Sb" "123-Antimony" 51 (1229042157, 7%nat) (51, 0%nat) (538, 2%nat);
  mkEl "Te" "Tellurium" 52 (127603, 3%nat) (52, 0%nat) (5682, 3%nat);
  mkEl "120-Te" "120-Tellurium" 52 (11990402, 5%nat) (52, 0%nat) (53, 1%nat);
  mkEl "122-Te" "122-Tellurium" 52 (1219030471, 7%nat) (52, 0%nat) (38, 1%nat);
  mkEl "123-Te" "123-Tellurium" 52 (122904273, 6%nat) (52, 0%nat) ((-5), 2%nat);
  mkEl "124-Te" "124-Tellurium" 52 (1239028195, 7%nat) (52, 0%nat) (795, 2%nat);
  mkEl "125-Te" "125-Tellurium" 52 (1249044247, 7%nat) (52, 0%nat) (501, 2%nat);
  mkEl "126-Te" "126-Tellurium" 52 (1259033055, 7%nat) (52, 0%nat) (555, 2%nat);
  mkEl "128-Te" "128-Tellurium" 52 (1279044614, 7%nat) (52, 0%nat) (588, 2%nat);
  mkEl "130-Te" "130-Tellurium" 52 (1299062228, 7%nat) (52, 0%nat) (601, 2%nat);
  mkEl "I" "Iodine" 53 (126904473, 6%nat) (53, 0%nat) (5282, 3%nat);
  mkEl "Xe" "Xenon" 54 (1312936, 4%nat) (54, 0%nat) (4694, 3%nat);
  mkEl "Cs" "Cesium" 55 (132905452, 6%nat) (55, 0%nat) (5422, 3%nat);
  mkEl "Ba" "Barium" 56 (1373277, 4%nat) (56, 0%nat) (5073, 3%nat);
  mkEl "130-Ba" "130-Barium" 56 (12990631, 5%nat) (56, 0%nat) ((-36), 1%nat);
  mkEl "132-Ba" "132-Barium" 56 (131905056, 6%nat) (56, 0%nat) (78, 1%nat);
  mkEl "134-Ba" "134-Barium" 56 (133904503, 6%nat) (56, 0%nat) (57, 1%nat);
  mkEl "135-Ba" "135-Barium" 56 (134905683, 6%nat) (56, 0%nat) (466, 2%nat);
  mkEl "136-Ba" "136-Barium" 56 (13590457, 5%nat) (56, 0%nat) (49, 1%nat);
  mkEl "137-Ba" "137-Barium" 56 (136905821, 6%nat) (56, 0%nat) (682, 2%nat);
  mkEl "138-Ba" "138-Barium" 56 (137905241, 6%nat) (56, 0%nat) (483, 2%nat);
  mkEl "La" "Lanthanum" 57 (13890552, 5%nat) (57, 0%nat) (8244, 3%nat);
  mkEl "138-La" "138-Lanthanum" 57 (137907107, 6%nat) (57, 0%nat) (8, 0%nat);
  mkEl "139-La" "139-Lanthanum" 57 (138906348, 6%nat) (57, 0%nat) (824, 2%nat);
  mkEl "Ce" "Cerium" 58 (1401161, 4%nat) (58, 0%nat) (4842, 3%nat);
  mkEl "136-Ce" "136-Cerium" 58 (13590714, 5%nat) (58, 0%nat) (576, 2%nat);
  mkEl "138-Ce" "138-Cerium" 58 (137905986, 6%nat) (58, 0%nat) (665, 2%nat);
  mkEl "140-Ce" "140-Cerium" 58 (139905434, 6%nat) (58, 0%nat) (481, 2%nat);
  mkEl "142-Ce" "142-Cerium" 58 (14190924, 5%nat) (58, 0%nat) (472, 2%nat);
  mkEl "Pr" "Praseodymium" 59 (140907652, 6%nat) (59, 0%nat) (4585, 3%nat);
  mkEl "Nd" "Neodymium" 60 (144243, 3%nat) (60, 0%nat) (7695, 3%nat);
  mkEl "142-Nd" "142-Neodymium" 60 (141907719, 6%nat) (60, 0%nat) (77, 1%nat);
  mkEl "143-Nd" "143-Neodymium" 60 (14290981, 5%nat) (60, 0%nat) (14, 0%nat);
  mkEl "144-Nd" "144-Neodymium" 60 (143910083, 6%nat) (60, 0%nat) (28, 1%nat);
  mkEl "145-Nd" "145-Neodymium" 60 (144912569, 6%nat) (60, 0%nat) (14, 0%nat);
  mkEl "146-Nd" "146-Neodymium" 60 (145913112, 6%nat) (60, 0%nat) (87, 1%nat);
  mkEl "148-Nd" "148-Neodymium" 60 (147916889, 6%nat) (60, 0%nat) (57, 1%nat);
  mkEl "150-Nd" "150-Neodymium" 60 (149920887, 6%nat) (60, 0%nat) (528, 2%nat);
  mkEl "Pm" "Promethium" 61 (145, 0%nat) (61, 0%nat) (1264, 2%nat);
  mkEl "Sm" "Samarium" 62 (150363, 3%nat) (62, 0%nat) (5, 3%nat);
  mkEl "144-Sm" "144-Samarium" 62 (143911995, 6%nat) (62, 0%nat) ((-3), 0%nat);
  mkEl "147-Sm" "147-Samarium" 62 (146914893, 6%nat) (62, 0%nat) (14, 0%nat);
  mkEl "148-Sm" "148-Samarium" 62 (147914818, 6%nat) (62, 0%nat) ((-3), 0%nat);
  mkEl "149-Sm" "149-Samarium" 62 (14891718, 5%nat) (62, 0%nat) (187, 1%nat);
  mkEl "150-Sm" "150-Samarium" 62 (149917271, 6%nat) (62, 0%nat) (14, 0%nat);
  mkEl "152-Sm" "152-Samarium" 62 (151919728, 6%nat) (62, 0%nat) ((-5), 0%nat);
  mkEl "154-Sm" "154-Samarium" 62 (153922205, 6%nat) (62, 0%nat) (8, 0%nat);
  mkEl "Eu" "Europium" 63 (1519641, 4%nat) (63, 0%nat) (533, 2%nat);
  mkEl "153-Eu" "153-Europium" 63 (152921226, 6%nat) (63, 0%nat) (822, 2%nat);
  mkEl "Gd" "Gadolinium" 64 (157253, 3%nat) (64, 0%nat) (952, 2%nat);
  mkEl "152-Gd" "152-Gadolinium" 64 (151919788, 6%nat) (64, 0%nat) (10, 0%nat);
  mkEl "154-Gd" "154-Gadolinium" 64 (153920862, 6%nat) (64, 0%nat) (10, 0%nat);
  mkEl "155-Gd" "155-Gadolinium" 64 (154922619, 6%nat) (64, 0%nat) (138, 1%nat);
  mkEl "156-Gd" "156-Gadolinium" 64 (15592212, 5%nat) (64, 0%nat) (63, 1%nat);
  mkEl "157-Gd" "157-Gadolinium" 64 (156923957, 6%nat) (64, 0%nat) (4, 0%nat);
  mkEl "158-Gd" "158-Gadolinium" 64 (157924101, 6%nat) (64, 0%nat) (9, 0%nat);
  mkEl "160-Gd" "160-Gadolinium" 64 (159927051, 6%nat) (64, 0%nat) (915, 2%nat);
  mkEl "Tb" "Terbium" 65 (158925342, 6%nat) (65, 0%nat) (7342, 3%nat);
  mkEl "Dy" "Dysprosium" 66 (1625001, 4%nat) (66, 0%nat) (1693, 2%nat);
  mkEl "156-Dy" "156-Dysprosium" 66 (155924278, 6%nat) (66, 0%nat) (61, 1%nat);
  mkEl "158-Dy" "158-Dysprosium" 66 (157924405, 6%nat) (66, 0%nat) (6, 0%nat);
  mkEl "160-Dy" "160-Dysprosium" 66 (159925194, 6%nat) (66, 0%nat) (67, 1%nat);
  mkEl "161-Dy" "161-Dysprosium" 66 (16092693, 5%nat) (66, 0%nat) (103, 1%nat);
  mkEl "162-Dy" "162-Dysprosium" 66 (161926795, 6%nat) (66, 0%nat) ((-14), 1%nat);
  mkEl "163-Dy" "163-Dysprosium" 66 (162928728, 6%nat) (66, 0%nat) (5, 0%nat);
  mkEl "164-Dy" "164-Dysprosium" 66 (163929171, 6%nat) (66, 0%nat) (494, 1%nat);
  mkEl "Ho" "Holmium" 67 (164930322, 6%nat) (67, 0%nat) (8443, 3%nat);
  mkEl "Er" "Erbium" 68 (1672593, 4%nat) (68, 0%nat) (7792, 3%nat);
  mkEl "162-Er" "162-Erbium" 68 (161928775, 6%nat) (68, 0%nat) (901, 2%nat);
  mkEl "164-Er" "164-Erbium" 68 (163929197, 6%nat) (68, 0%nat) (795, 2%nat);
  mkEl "166-Er" "166-Erbium" 68 (16593029, 5%nat) (68, 0%nat) (1051, 2%nat);
  mkEl "167-Er" "167-Erbium" 68 (166932045, 6%nat) (68, 0%nat) (306, 2%nat);
  mkEl "168-Er" "168-Erbium" 68 (167932368, 6%nat) (68, 0%nat) (743, 2%nat);
  mkEl "170-Er" "170-Erbium" 68 (16993546, 5%nat) (68, 0%nat) (961, 2%nat);
  mkEl "Tm" "Thulium" 69 (168934212, 6%nat) (69, 0%nat) (7073, 3%nat);
  mkEl "Yb" "Ytterbium" 70 (173043, 3%nat) (70, 0%nat) (12413, 3%nat);
  mkEl "168-Yb" "168-Ytterbium" 70 (167933894, 6%nat) (70, 0%nat) ((-407), 2%nat);
  mkEl "170-Yb" "170-Ytterbium" 70 (169934759, 6%nat) (70, 0%nat) (68, 1%nat);
  mkEl "171-Yb" "171-Ytterbium" 70 (170936322, 6%nat) (70, 0%nat) (97, 1%nat);
  mkEl "172-Yb" "172-Ytterbium" 70 (1719363777, 7%nat) (70, 0%nat) (95, 1%nat);
  mkEl "173-Yb" "173-Ytterbium" 70 (1729382068, 7%nat) (70, 0%nat) (956, 2%nat);
  mkEl "174-Yb" "174-Ytterbium" 70 (1739388581, 7%nat) (70, 0%nat) (192, 1%nat);
  mkEl "176-Yb" "176-Ytterbium" 70 (175942568, 6%nat) (70, 0%nat) (87, 1%nat);
  mkEl "Lu" "Lutetium" 71 (1749671, 4%nat) (71, 0%nat) (7213, 3%nat);
  mkEl "175-Lu" "175-Lutetium" 71 (1749407679, 7%nat) (71, 0%nat) (728, 2%nat);
  mkEl "176-Lu" "176-Lutetium" 71 (1759426824, 7%nat) (71, 0%nat) (61, 1%nat);
  mkEl "Hf" "Hafnium" 72 (178492, 3%nat) (72, 0%nat) (77714, 4%nat);
  mkEl "174-Hf" "174-Hafnium" 72 (17394004, 5%nat) (72, 0%nat) (109, 1%nat);
  mkEl "176-Hf" "176-Hafnium" 72 (1759414018, 7%nat) (72, 0%nat) (661, 2%nat);
  mkEl "177-Hf" "177-Hafnium" 72 (17694322, 5%nat) (72, 0%nat) (8, 1%nat);
  mkEl "178-Hf" "178-Hafnium" 72 (1779436977, 7%nat) (72, 0%nat) (59, 1%nat);
  mkEl "179-Hf" "179-Hafnium" 72 (1789458151, 7%nat) (72, 0%nat) (746, 2%nat);
  mkEl "180-Hf" "180-Hafnium" 72 (1799465488, 7%nat) (72, 0%nat) (132, 1%nat);
  mkEl "Ta" "Tantalum" 73 (18094791, 5%nat) (73, 0%nat) (6917, 3%nat);
  mkEl "180-Ta" "180-Tantalum" 73 (179947466, 6%nat) (73, 0%nat) (7, 0%nat);
  mkEl "181-Ta" "181-Tantalum" 73 (180947996, 6%nat) (73, 0%nat) (691, 2%nat);
  mkEl "W" "Tungsten" 74 (183841, 3%nat) (74, 0%nat) (475518, 5%nat);
  mkEl "180-W" "180-Tungsten" 74 (179946706, 6%nat) (74, 0%nat) (5, 0%nat);
  mkEl "182-W" "182-Tungsten" 74 (181948206, 6%nat) (74, 0%nat) (704, 2%nat);
  mkEl "183-W" "183-Tungsten" 74 (1829502245, 7%nat) (74, 0%nat) (659, 2%nat);
  mkEl "184-W" "184-Tungsten" 74 (1839509326, 7%nat) (74, 0%nat) (755, 2%nat);
  mkEl "186-W" "186-Tungsten" 74 (185954362, 6%nat) (74, 0%nat) ((-73), 2%nat);
  mkEl "Re" "Rhenium" 75 (1862071, 4%nat) (75, 0%nat) (922, 2%nat);
  mkEl "185-Re" "185-Rhenium" 75 (1849529557, 7%nat) (75, 0%nat) (9, 0%nat);
  mkEl "187-Re" "187-Rhenium" 75 (1869557508, 7%nat) (75, 0%nat) (93, 1%nat);
  mkEl "Os" "Osmium" 76 (190233, 3%nat) (76, 0%nat) (1072, 2%nat);
  mkEl "184-Os" "184-Osmium" 76 (183952491, 6%nat) (76, 0%nat) (10, 0%nat);
  mkEl "186-Os" "186-Osmium" 76 (185953838, 6%nat) (76, 0%nat) (12, 0%nat);
  mkEl "187-Os" "187-Osmium" 76 (1869557479, 7%nat) (76, 0%nat) (10, 0%nat);
  mkEl "188-Os" "188-Osmium" 76 (187955836, 6%nat) (76, 0%nat) (78, 1%nat);
  mkEl "189-Os" "189-Osmium" 76 (1889581449, 7%nat) (76, 0%nat) (11, 0%nat);
  mkEl "190-Os" "190-Osmium" 76 (189958445, 6%nat) (76, 0%nat) (114, 1%nat);
  mkEl "192-Os" "192-Osmium" 76 (191961479, 6%nat) (76, 0%nat) (119, 1%nat);
  mkEl "Ir" "Iridium" 77 (1922173, 4%nat) (77, 0%nat) (1063, 2%nat);
  mkEl "Pt" "Platinum" 78 (1950782, 4%nat) (78, 0%nat) (9601, 3%nat);
  mkEl "190-Pt" "190-Platinum" 78 (18995993, 5%nat) (78, 0%nat) (9, 0%nat);
  mkEl "192-Pt" "192-Platinum" 78 (191961035, 6%nat) (78, 0%nat) (99, 1%nat);
  mkEl "194-Pt" "194-Platinum" 78 (193962664, 6%nat) (78, 0%nat) (1055, 2%nat);
  mkEl "195-Pt" "195-Platinum" 78 (194964774, 6%nat) (78, 0%nat) (891, 2%nat);
  mkEl "196-Pt" "196-Platinum" 78 (195964935, 6%nat) (78, 0%nat) (989, 2%nat);
  mkEl "198-Pt" "198-Platinum" 78 (197967876, 6%nat) (78, 0%nat) (78, 1%nat);
  mkEl "Au" "Gold" 79 (196966552, 6%nat) (79, 0%nat) (7907, 3%nat);
  mkEl "Hg" "Mercury" 80 (200592, 3%nat) (80, 0%nat) (1259545, 5%nat);
  mkEl "196-Hg" "196-Mercury" 80 (195965815, 6%nat) (80, 0%nat) (303, 1%nat);
  mkEl "199-Hg" "199-Mercury" 80 (198968262, 6%nat) (80, 0%nat) (169, 1%nat);
  mkEl "202-Hg" "202-Mercury" 80 (201970626, 6%nat) (80, 0%nat) (11002, 3%nat);
  mkEl "Tl" "Thallium" 81 (20438332, 5%nat) (81, 0%nat) (87765, 4%nat);
  mkEl "203-Tl" "203-Thallium" 81 (202972329, 6%nat) (81, 0%nat) (851, 2%nat);
  mkEl "205-Tl" "205-Thallium" 81 (204974412, 6%nat) (81, 0%nat) (887, 2%nat);
  mkEl "Pb" "Lead" 82 (20721, 2%nat) (82, 0%nat) (94012, 4%nat);
  mkEl "204-Pb" "204-Lead" 82 (203973029, 6%nat) (82, 0%nat) (10893, 3%nat);
  mkEl "206-Pb" "206-Lead" 82 (205974449, 6%nat) (82, 0%nat) (92221, 4%nat);
  mkEl "207-Pb" "207-Lead" 82 (206975881, 6%nat) (82, 0%nat) (9286, 3%nat);
  mkEl "208-Pb" "208-Lead" 82 (207976636, 6%nat) (82, 0%nat) (9494, 3%nat);
  mkEl "Bi" "Bismuth" 83 (208980382, 6%nat) (83, 0%nat) (85322, 4%nat);
  mkEl "Po" "Polonium" 84 (209, 0%nat) (84, 0%nat) (0, 0%nat);
  mkEl "At" "Astatine" 85 (210, 0%nat) (85, 0%nat) (0, 0%nat);
  mkEl "Rn" "Radon" 86 (222, 0%nat) (86, 0%nat) (0, 0%nat);
  mkEl "Fr" "Francium" 87 (223, 0%nat) (87, 0%nat) (0, 0%nat);
  mkEl "Ra" "Radium" 88 (226, 0%nat) (88, 0%nat) (10, 0%nat);
  mkEl "Ac" "Actinium" 89 (227, 0%nat) (89, 0%nat) (0, 0%nat);
  mkEl "Th" "Thorium" 90 (23203811, 5%nat) (90, 0%nat) (1031, 2%nat);
  mkEl "Pa" "Protactinium" 91 (231035882, 6%nat) (91, 0%nat) (913, 2%nat);
  mkEl "U" "Uranium" 92 (238028913, 6%nat) (92, 0%nat) (8417, 3%nat);
  mkEl "233-U" "233-Uranium" 92 (233039628, 6%nat) (92, 0%nat) (101, 1%nat);
  mkEl "234-U" "234-Uranium" 92 (2340409456, 7%nat) (92, 0%nat) (124, 1%nat);
  mkEl "235-U" "235-Uranium" 92 (2350439231, 7%nat) (92, 0%nat) (105, 1%nat);
  mkEl "238-U" "238-Uranium" 92 (2380507826, 7%nat) (92, 0%nat) (8407, 3%nat);
  mkEl "Np" "Neptunium" 93 (237, 0%nat) (93, 0%nat) (1055, 2%nat);
  mkEl "Pu" "Plutonium" 94 (244, 0%nat) (94, 0%nat) (771, 2%nat);
  mkEl "240-Pu" "240-Plutonium" 94 (2400538075, 7%nat) (94, 0%nat) (35, 1%nat);
  mkEl "242-Pu" "242-Plutonium" 94 (2420587368, 7%nat) (94, 0%nat) (81, 1%nat);
  mkEl "Am" "Americium" 95 (243, 0%nat) (95, 0%nat) (832, 2%nat);
  mkEl "Cm" "Curium" 96 (247, 0%nat) (96, 0%nat) (953, 2%nat);
  mkEl "246-Cm" "246-Curium" 96 (2460672176, 7%nat) (96, 0%nat) (93, 1%nat);
  mkEl "248-Cm" "248-Curium" 96 (248072342, 6%nat) (96, 0%nat) (77, 1%nat);
  mkEl "Bk" "Berkelium" 97 (247, 0%nat) (97, 0%nat) (0, 0%nat);
  mkEl "Cf" "Californium" 98 (251, 0%nat) (98, 0%nat) (0, 0%nat);
  mkEl "Es" "Einsteinium" 99 (252, 0%nat) (99, 0%nat) (0, 0%nat);
  mkEl "Fm" "Fermium" 100 (257, 0%nat) (100, 0%nat) (0, 0%nat);
  mkEl "Md" "Mendelevium" 101 (258, 0%nat) (101, 0%nat) (0, 0%nat);
  mkEl "No" "Nobelium" 102 (259, 0%nat) (102, 0%nat) (0, 0%nat);
  mkEl "Lr" "Lawrencium" 103 (262, 0%nat) (103, 0%nat) (0, 0%nat);
  mkEl "Rf" "Rutherfordium" 104 (261, 0%nat) (104, 0%nat) (0, 0%nat);
  mkEl "Db" "Dubnium" 105 (262, 0%nat) (105, 0%nat) (0, 0%nat);
  mkEl "Sg" "Seaborgium" 106 (266, 0%nat) (106, 0%nat) (0, 0%nat);
  mkEl "Bh" "Bohrium" 107 (264, 0%nat) (107, 0%nat) (0, 0%nat);
  mkEl "Hs" "Hassium" 108 (277, 0%nat) (108, 0%nat) (0, 0%nat);
  mkEl "Mt" "Meitnerium" 109 (268, 0%nat) (109, 0%nat) (0, 0%nat);
  mkEl "Ds" "Darmstadtium" 110 (281, 0%nat) (110, 0%nat) (0, 0%nat);
  mkEl "Rg" "Roentgenium" 111 (272, 0%nat) (111, 0%nat) (0, 0%nat)].
