(* A certificate for the correct-prefix property of the generated parser (checked in LocViaProofs.v): for every state s and
   every state p that may lie under it, (p, t, n): feeding token t next leads on, in n rounds at most, to acceptance.
   Computed outside Coq; nothing about it is trusted. *)
From Verif Require Import GoBase.
Local Open Scope Z_scope.

Definition comp_tab : list (list (Z * Z * nat)) := [
  [((-1), 20, 15%nat)]; [(0, 1, 0%nat)]; [(0, 20, 15%nat)]; [(0, 1, 1%nat)]; [(0, 20, 16%nat)];
  [(0, 1, 2%nat); (2, 1, 2%nat)]; [(0, 5, 19%nat); (2, 5, 19%nat)]; [(0, 5, 19%nat); (2, 5, 19%nat)];
  [(0, 1, 3%nat); (2, 1, 3%nat); (3, 1, 3%nat); (26, 1, 3%nat)];
  [(0, 1, 3%nat); (2, 1, 3%nat); (3, 1, 3%nat); (26, 1, 3%nat)];
  [(0, 1, 3%nat); (2, 1, 3%nat); (3, 1, 3%nat); (26, 1, 3%nat)];
  [(0, 1, 3%nat); (2, 1, 3%nat); (3, 1, 3%nat); (26, 1, 3%nat)];
  [(0, 1, 3%nat); (2, 1, 3%nat); (3, 1, 3%nat); (26, 1, 3%nat)];
  [(0, 1, 3%nat); (2, 1, 3%nat); (3, 1, 3%nat); (26, 1, 3%nat)];
  [(0, 19, 12%nat); (2, 19, 12%nat); (3, 19, 12%nat); (26, 19, 12%nat)];
  [(0, 19, 12%nat); (2, 19, 12%nat); (3, 19, 12%nat); (26, 19, 12%nat)];
  [(0, 19, 12%nat); (2, 19, 12%nat); (3, 19, 12%nat); (26, 19, 12%nat)];
  [(0, 19, 12%nat); (2, 19, 12%nat); (3, 19, 12%nat); (26, 19, 12%nat)];
  [(0, 19, 12%nat); (2, 19, 12%nat); (3, 19, 12%nat); (26, 19, 12%nat)];
  [(0, 19, 12%nat); (2, 19, 12%nat); (3, 19, 12%nat); (26, 19, 12%nat)];
  [(0, 16, 14%nat); (2, 16, 14%nat); (3, 16, 14%nat); (26, 16, 14%nat)];
  [(0, 16, 14%nat); (2, 16, 14%nat); (3, 16, 14%nat); (26, 16, 14%nat)];
  [(0, 16, 14%nat); (2, 16, 14%nat); (3, 16, 14%nat); (26, 16, 14%nat)];
  [(0, 16, 14%nat); (2, 16, 14%nat); (3, 16, 14%nat); (26, 16, 14%nat)];
  [(0, 16, 14%nat); (2, 16, 14%nat); (3, 16, 14%nat); (26, 16, 14%nat)];
  [(0, 16, 14%nat); (2, 16, 14%nat); (3, 16, 14%nat); (26, 16, 14%nat)]; [(2, 1, 1%nat)]; [(2, 20, 16%nat)];
  [(3, 1, 2%nat); (26, 1, 2%nat)]; [(6, 16, 18%nat)]; [(7, 16, 18%nat)]; [(14, 45, 8%nat)]; [(14, 4, 11%nat)];
  [(14, 45, 9%nat)]; [(14, 5, 14%nat); (31, 5, 14%nat)]; [(14, 96, 20%nat); (31, 96, 20%nat)];
  [(14, 13, 13%nat); (31, 13, 13%nat)]; [(14, 5, 15%nat); (31, 5, 15%nat)]; [(14, 5, 15%nat); (31, 5, 15%nat)];
  [(14, 5, 15%nat); (31, 5, 15%nat)]; [(14, 5, 15%nat); (31, 5, 15%nat)]; [(14, 5, 15%nat); (31, 5, 15%nat)];
  [(14, 5, 15%nat); (31, 5, 15%nat)]; [(14, 5, 15%nat); (31, 5, 15%nat)]; [(14, 5, 15%nat); (31, 5, 15%nat)];
  [(14, 5, 15%nat); (31, 5, 15%nat)]; [(14, 5, 15%nat); (31, 5, 15%nat)]; [(14, 5, 15%nat); (31, 5, 15%nat)];
  [(14, 5, 15%nat); (31, 5, 15%nat)]; [(14, 5, 15%nat); (31, 5, 15%nat)]; [(14, 96, 21%nat); (31, 96, 21%nat)];
  [(14, 96, 21%nat); (31, 96, 21%nat)]; [(15, 45, 8%nat)]; [(15, 4, 11%nat)]; [(15, 45, 9%nat)]; [(15, 39, 20%nat)];
  [(15, 7, 17%nat); (55, 7, 17%nat)]; [(15, 39, 21%nat)]; [(15, 39, 21%nat)]; [(15, 16, 19%nat); (55, 16, 19%nat)];
  [(15, 7, 24%nat); (55, 7, 24%nat)]; [(15, 8, 23%nat); (55, 8, 23%nat)]; [(15, 94, 27%nat); (55, 94, 27%nat)];
  [(16, 45, 8%nat)]; [(16, 4, 11%nat)]; [(16, 45, 9%nat)]; [(16, 94, 14%nat); (63, 94, 14%nat)];
  [(16, 94, 14%nat); (63, 94, 14%nat)]; [(17, 45, 8%nat)]; [(17, 4, 11%nat)]; [(17, 45, 9%nat)];
  [(17, 93, 13%nat); (68, 93, 13%nat)]; [(17, 6, 12%nat); (68, 6, 12%nat)]; [(17, 6, 13%nat); (68, 6, 13%nat)];
  [(17, 93, 14%nat); (68, 93, 14%nat)]; [(17, 93, 14%nat); (68, 93, 14%nat)]; [(17, 93, 14%nat); (68, 93, 14%nat)];
  [(17, 93, 14%nat); (68, 93, 14%nat)]; [(17, 93, 14%nat); (68, 93, 14%nat)]; [(17, 93, 14%nat); (68, 93, 14%nat)];
  [(17, 6, 13%nat); (68, 6, 13%nat)]; [(17, 6, 13%nat); (68, 6, 13%nat)]; [(17, 6, 13%nat); (68, 6, 13%nat)];
  [(17, 6, 13%nat); (68, 6, 13%nat)]; [(17, 6, 13%nat); (68, 6, 13%nat)]; [(17, 6, 13%nat); (68, 6, 13%nat)];
  [(17, 6, 13%nat); (68, 6, 13%nat)]; [(17, 6, 13%nat); (68, 6, 13%nat)]; [(17, 6, 13%nat); (68, 6, 13%nat)];
  [(17, 6, 13%nat); (68, 6, 13%nat)]; [(17, 6, 13%nat); (68, 6, 13%nat)]; [(17, 6, 13%nat); (68, 6, 13%nat)];
  [(17, 6, 13%nat); (68, 6, 13%nat)]; [(17, 6, 13%nat); (68, 6, 13%nat)]; [(17, 6, 14%nat); (68, 6, 14%nat)];
  [(18, 45, 8%nat)]; [(18, 4, 11%nat)]; [(18, 45, 9%nat)]; [(18, 93, 13%nat); (95, 93, 13%nat)];
  [(18, 6, 13%nat); (95, 6, 13%nat)]; [(18, 93, 14%nat); (95, 93, 14%nat)]; [(18, 93, 14%nat); (95, 93, 14%nat)];
  [(18, 6, 14%nat); (95, 6, 14%nat)]; [(19, 45, 8%nat)]; [(19, 4, 11%nat)]; [(19, 45, 9%nat)];
  [(19, 94, 18%nat); (103, 94, 18%nat)]; [(19, 94, 18%nat); (103, 94, 18%nat)];
  [(19, 94, 18%nat); (103, 94, 18%nat)]; [(19, 94, 19%nat); (103, 94, 19%nat)];
  [(19, 94, 19%nat); (103, 94, 19%nat)]; [(19, 94, 19%nat); (103, 94, 19%nat)];
  [(19, 94, 19%nat); (103, 94, 19%nat)]; [(19, 94, 19%nat); (103, 94, 19%nat)];
  [(19, 94, 19%nat); (103, 94, 19%nat)]; [(19, 94, 19%nat); (103, 94, 19%nat)];
  [(19, 94, 19%nat); (103, 94, 19%nat)]; [(19, 94, 19%nat); (103, 94, 19%nat)];
  [(19, 94, 19%nat); (103, 94, 19%nat)]; [(19, 94, 19%nat); (103, 94, 19%nat)];
  [(19, 94, 19%nat); (103, 94, 19%nat)]; [(19, 94, 19%nat); (103, 94, 19%nat)];
  [(19, 94, 19%nat); (103, 94, 19%nat)]; [(20, 19, 13%nat)]; [(21, 19, 13%nat)]; [(22, 19, 13%nat)];
  [(23, 19, 13%nat)]; [(24, 19, 13%nat)]; [(25, 19, 13%nat)]; [(29, 20, 17%nat)]; [(30, 20, 17%nat)];
  [(31, 1, 4%nat)]; [(31, 45, 9%nat)]; [(31, 20, 7%nat); (209, 20, 7%nat)]; [(32, 16, 9%nat)];
  [(32, 16, 10%nat); (53, 16, 10%nat); (64, 16, 10%nat); (69, 16, 10%nat); (96, 16, 10%nat); (104, 16, 10%nat)];
  [(32, 4, 12%nat); (53, 4, 12%nat); (64, 4, 12%nat); (69, 4, 12%nat); (96, 4, 12%nat); (104, 4, 12%nat)];
  [(34, 16, 11%nat)]; [(34, 16, 12%nat)];
  [(34, 16, 13%nat); (56, 16, 18%nat); (146, 97, 18%nat); (155, 16, 18%nat); (158, 16, 19%nat); (172, 94, 26%nat); (184, 94, 15%nat); (195, 94, 15%nat); (205, 94, 16%nat); (212, 16, 13%nat); (229, 94, 21%nat); (236, 94, 26%nat); (247, 94, 15%nat); (256, 94, 15%nat); (263, 94, 16%nat); (272, 98, 15%nat); (278, 16, 19%nat); (279, 94, 21%nat); (305, 16, 13%nat)];
  [(34, 16, 13%nat); (56, 16, 18%nat); (146, 97, 18%nat); (155, 16, 18%nat); (158, 16, 19%nat); (172, 94, 26%nat); (184, 94, 15%nat); (195, 94, 15%nat); (205, 94, 16%nat); (212, 16, 13%nat); (229, 94, 21%nat); (236, 94, 26%nat); (247, 94, 15%nat); (256, 94, 15%nat); (263, 94, 16%nat); (272, 98, 15%nat); (278, 16, 19%nat); (279, 94, 21%nat); (305, 16, 13%nat)];
  [(34, 16, 13%nat); (56, 16, 18%nat); (146, 97, 18%nat); (155, 16, 18%nat); (158, 16, 19%nat); (172, 94, 26%nat); (184, 94, 15%nat); (195, 94, 15%nat); (205, 94, 16%nat); (212, 16, 13%nat); (229, 94, 21%nat); (236, 94, 26%nat); (247, 94, 15%nat); (256, 94, 15%nat); (263, 94, 16%nat); (272, 98, 15%nat); (278, 16, 19%nat); (279, 94, 21%nat); (305, 16, 13%nat)];
  [(34, 16, 13%nat); (56, 16, 18%nat); (146, 97, 18%nat); (155, 16, 18%nat); (158, 16, 19%nat); (172, 94, 26%nat); (184, 94, 15%nat); (195, 94, 15%nat); (205, 94, 16%nat); (212, 16, 13%nat); (229, 94, 21%nat); (236, 94, 26%nat); (247, 94, 15%nat); (256, 94, 15%nat); (263, 94, 16%nat); (272, 98, 15%nat); (278, 16, 19%nat); (279, 94, 21%nat); (305, 16, 13%nat)];
  [(34, 16, 13%nat); (56, 16, 18%nat); (146, 97, 18%nat); (155, 16, 18%nat); (158, 16, 19%nat); (172, 94, 26%nat); (184, 94, 15%nat); (195, 94, 15%nat); (205, 94, 16%nat); (212, 16, 13%nat); (229, 94, 21%nat); (236, 94, 26%nat); (247, 94, 15%nat); (256, 94, 15%nat); (263, 94, 16%nat); (272, 98, 15%nat); (278, 16, 19%nat); (279, 94, 21%nat); (305, 16, 13%nat)];
  [(35, 16, 11%nat)]; [(35, 16, 12%nat)]; [(35, 5, 19%nat); (214, 5, 19%nat)]; [(36, 16, 11%nat)];
  [(36, 16, 12%nat)]; [(52, 1, 4%nat)]; [(52, 36, 7%nat); (219, 36, 7%nat)]; [(53, 16, 9%nat)]; [(55, 45, 9%nat)];
  [(55, 39, 21%nat)]; [(55, 39, 21%nat)]; [(56, 89, 13%nat)]; [(56, 89, 14%nat)];
  [(56, 16, 16%nat); (155, 16, 16%nat)]; [(56, 16, 16%nat); (155, 16, 16%nat)];
  [(56, 16, 17%nat); (155, 16, 17%nat)]; [(56, 16, 17%nat); (155, 16, 17%nat)];
  [(56, 16, 17%nat); (155, 16, 17%nat)]; [(56, 16, 17%nat); (155, 16, 17%nat)]; [(59, 7, 18%nat)];
  [(59, 16, 19%nat)]; [(59, 16, 20%nat)]; [(59, 16, 21%nat); (233, 16, 21%nat)];
  [(59, 16, 22%nat); (233, 16, 22%nat); (234, 16, 22%nat)]; [(59, 16, 22%nat); (233, 16, 22%nat); (234, 16, 22%nat)];
  [(59, 16, 22%nat); (233, 16, 22%nat); (234, 16, 22%nat)]; [(60, 16, 23%nat)]; [(61, 39, 22%nat)];
  [(62, 7, 26%nat)]; [(63, 1, 4%nat)]; [(63, 45, 9%nat)]; [(63, 85, 7%nat); (241, 85, 7%nat)]; [(64, 16, 9%nat)];
  [(66, 15, 13%nat)]; [(67, 15, 13%nat)]; [(68, 1, 4%nat)]; [(68, 45, 9%nat)]; [(68, 64, 7%nat); (245, 64, 7%nat)];
  [(69, 16, 9%nat)]; [(71, 16, 11%nat)]; [(71, 5, 16%nat)]; [(71, 16, 12%nat)]; [(72, 16, 11%nat)];
  [(72, 16, 11%nat)]; [(73, 16, 11%nat)]; [(73, 16, 12%nat)]; [(95, 1, 4%nat)]; [(95, 45, 9%nat)];
  [(95, 61, 7%nat); (254, 61, 7%nat)]; [(96, 16, 9%nat)]; [(98, 16, 11%nat)]; [(98, 5, 16%nat)]; [(98, 16, 12%nat)];
  [(99, 16, 11%nat)]; [(99, 16, 12%nat)]; [(103, 1, 4%nat)]; [(103, 45, 9%nat)];
  [(103, 46, 7%nat); (260, 46, 7%nat)]; [(104, 16, 9%nat)]; [(106, 16, 11%nat)];
  [(106, 16, 12%nat); (108, 16, 12%nat)]; [(106, 5, 17%nat); (107, 5, 17%nat); (108, 5, 17%nat); (262, 5, 17%nat)];
  [(107, 16, 11%nat)]; [(108, 16, 11%nat)]; [(133, 16, 6%nat)]; [(134, 45, 8%nat)]; [(136, 94, 11%nat)];
  [(137, 45, 10%nat)]; [(137, 5, 14%nat)]; [(144, 45, 10%nat)]; [(144, 96, 20%nat)]; [(146, 97, 17%nat)];
  [(147, 45, 10%nat)]; [(147, 13, 13%nat)]; [(150, 16, 6%nat)]; [(151, 45, 8%nat)]; [(155, 45, 10%nat)];
  [(155, 89, 14%nat)]; [(155, 16, 12%nat)]; [(157, 89, 15%nat)]; [(158, 16, 16%nat)]; [(158, 89, 15%nat)];
  [(158, 16, 17%nat)]; [(158, 16, 18%nat); (278, 16, 18%nat)]; [(158, 16, 18%nat); (278, 16, 18%nat)];
  [(158, 7, 21%nat); (278, 7, 21%nat)]; [(158, 16, 18%nat); (278, 16, 18%nat)];
  [(158, 16, 18%nat); (278, 16, 18%nat)]; [(164, 7, 18%nat)]; [(164, 40, 23%nat)];
  [(165, 40, 23%nat); (282, 40, 23%nat)]; [(170, 39, 22%nat)]; [(172, 94, 24%nat)];
  [(172, 94, 25%nat); (229, 94, 20%nat)]; [(172, 94, 25%nat)]; [(172, 94, 25%nat); (229, 94, 20%nat)];
  [(175, 16, 6%nat)]; [(176, 45, 8%nat)]; [(177, 94, 12%nat)]; [(178, 94, 12%nat)]; [(181, 16, 6%nat)];
  [(182, 45, 8%nat)]; [(183, 45, 10%nat)]; [(184, 94, 13%nat)];
  [(184, 94, 14%nat); (195, 94, 14%nat); (205, 94, 15%nat)]; [(186, 45, 10%nat)]; [(187, 45, 10%nat)];
  [(188, 45, 10%nat)]; [(188, 6, 13%nat)]; [(192, 16, 6%nat)]; [(193, 45, 8%nat)]; [(194, 45, 10%nat)];
  [(195, 94, 13%nat)]; [(197, 45, 10%nat)]; [(197, 6, 13%nat)]; [(201, 16, 6%nat)]; [(202, 45, 8%nat)];
  [(203, 45, 10%nat)]; [(203, 94, 18%nat); (207, 94, 18%nat)]; [(205, 94, 14%nat)]; [(206, 45, 10%nat)];
  [(207, 45, 10%nat)]; [(208, 1, 5%nat)]; [(209, 1, 4%nat)]; [(210, 16, 10%nat)]; [(212, 16, 12%nat)];
  [(212, 95, 15%nat)]; [(214, 16, 12%nat)]; [(215, 5, 16%nat)]; [(217, 16, 12%nat)]; [(218, 1, 5%nat)];
  [(219, 1, 4%nat)]; [(222, 45, 11%nat)]; [(224, 89, 15%nat)]; [(224, 16, 17%nat)]; [(229, 94, 19%nat)]; [];
  [(229, 94, 20%nat)]; [(233, 16, 20%nat)]; [(234, 16, 21%nat)]; [(236, 94, 25%nat); (279, 94, 20%nat)];
  [(236, 94, 25%nat); (279, 94, 20%nat)]; [(236, 94, 25%nat); (279, 94, 20%nat)]; [(236, 16, 23%nat)];
  [(240, 1, 5%nat)]; [(241, 1, 4%nat)]; [(242, 16, 11%nat)]; [(243, 16, 11%nat)]; [(244, 1, 5%nat)];
  [(245, 1, 4%nat)]; [(247, 94, 14%nat); (256, 94, 14%nat); (263, 94, 15%nat)]; [(247, 16, 12%nat)];
  [(252, 16, 12%nat)]; [(253, 1, 5%nat)]; [(254, 1, 4%nat)]; [(256, 16, 12%nat)]; [(258, 16, 12%nat)];
  [(259, 1, 5%nat)]; [(260, 1, 4%nat)]; [(262, 16, 12%nat)]; [(263, 16, 13%nat)]; [(270, 5, 14%nat)];
  [(272, 98, 14%nat)]; [(278, 16, 17%nat)]; [(279, 16, 18%nat)]; []; []; [(287, 39, 22%nat)]; [(290, 45, 10%nat)];
  [(291, 45, 10%nat)]; [(305, 16, 12%nat)]; [(306, 16, 13%nat)]
].
