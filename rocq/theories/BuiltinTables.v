(** * BuiltinTables: the metrics of the standard fonts.
    GENERATED by tools/mkbuiltins.py from /repo/src/pdfje/fonts/builtins.py; each table
    says the lines it is copied from.  A table that occurs twice with the same contents is
    written once (Helvetica and Helvetica-Oblique, Helvetica-Bold and -BoldOblique). *)
From Verif Require Import Base.
Open Scope Z_scope.
Open Scope N_scope.
(** builtins.py 22-255 *)
Definition w_Helvetica : list (N * Z) :=
  [(32, 278%Z); (33, 278%Z); (34, 355%Z); (35, 556%Z); (36, 556%Z); (37, 889%Z); (38, 667%Z); (39, 191%Z);
   (40, 333%Z); (41, 333%Z); (42, 389%Z); (43, 584%Z); (44, 278%Z); (45, 333%Z); (46, 278%Z); (47, 278%Z);
   (48, 556%Z); (49, 556%Z); (50, 556%Z); (51, 556%Z); (52, 556%Z); (53, 556%Z); (54, 556%Z); (55, 556%Z);
   (56, 556%Z); (57, 556%Z); (58, 278%Z); (59, 278%Z); (60, 584%Z); (61, 584%Z); (62, 584%Z); (63, 556%Z);
   (64, 1015%Z); (65, 667%Z); (66, 667%Z); (67, 722%Z); (68, 722%Z); (69, 667%Z); (70, 611%Z); (71, 778%Z);
   (72, 722%Z); (73, 278%Z); (74, 500%Z); (75, 667%Z); (76, 556%Z); (77, 833%Z); (78, 722%Z); (79, 778%Z);
   (80, 667%Z); (81, 778%Z); (82, 722%Z); (83, 667%Z); (84, 611%Z); (85, 722%Z); (86, 667%Z); (87, 944%Z);
   (88, 667%Z); (89, 667%Z); (90, 611%Z); (91, 278%Z); (92, 278%Z); (93, 278%Z); (94, 469%Z); (95, 556%Z);
   (96, 333%Z); (97, 556%Z); (98, 556%Z); (99, 500%Z); (100, 556%Z); (101, 556%Z); (102, 278%Z); (103, 556%Z);
   (104, 556%Z); (105, 222%Z); (106, 222%Z); (107, 500%Z); (108, 222%Z); (109, 833%Z); (110, 556%Z); (111, 556%Z);
   (112, 556%Z); (113, 556%Z); (114, 333%Z); (115, 500%Z); (116, 278%Z); (117, 556%Z); (118, 500%Z); (119, 722%Z);
   (120, 500%Z); (121, 500%Z); (122, 500%Z); (123, 334%Z); (124, 260%Z); (125, 334%Z); (126, 584%Z); (161, 333%Z);
   (162, 556%Z); (163, 556%Z); (164, 556%Z); (165, 556%Z); (166, 260%Z); (167, 556%Z); (169, 737%Z); (170, 370%Z);
   (171, 556%Z); (172, 584%Z); (174, 737%Z); (176, 400%Z); (177, 584%Z); (178, 333%Z); (179, 333%Z); (182, 537%Z);
   (183, 278%Z); (185, 333%Z); (186, 365%Z); (187, 556%Z); (188, 834%Z); (189, 834%Z); (190, 834%Z); (191, 611%Z);
   (192, 667%Z); (193, 667%Z); (194, 667%Z); (195, 667%Z); (196, 667%Z); (197, 667%Z); (198, 1000%Z); (199, 722%Z);
   (200, 667%Z); (201, 667%Z); (202, 667%Z); (203, 667%Z); (204, 278%Z); (205, 278%Z); (206, 278%Z); (207, 278%Z);
   (208, 722%Z); (209, 722%Z); (210, 778%Z); (211, 778%Z); (212, 778%Z); (213, 778%Z); (214, 778%Z); (215, 584%Z);
   (216, 778%Z); (217, 722%Z); (218, 722%Z); (219, 722%Z); (220, 722%Z); (221, 667%Z); (222, 667%Z); (223, 611%Z);
   (224, 556%Z); (225, 556%Z); (226, 556%Z); (227, 556%Z); (228, 556%Z); (229, 556%Z); (230, 889%Z); (231, 500%Z);
   (232, 556%Z); (233, 556%Z); (234, 556%Z); (235, 556%Z); (236, 278%Z); (237, 278%Z); (238, 278%Z); (239, 278%Z);
   (240, 556%Z); (241, 556%Z); (242, 556%Z); (243, 556%Z); (244, 556%Z); (245, 556%Z); (246, 556%Z); (247, 584%Z);
   (248, 611%Z); (249, 556%Z); (250, 556%Z); (251, 556%Z); (252, 556%Z); (253, 500%Z); (254, 556%Z); (255, 500%Z);
   (305, 278%Z); (321, 556%Z); (322, 222%Z); (338, 1000%Z); (339, 944%Z); (352, 667%Z); (353, 500%Z); (376, 667%Z);
   (381, 611%Z); (382, 500%Z); (402, 556%Z); (710, 333%Z); (711, 333%Z); (769, 333%Z); (771, 333%Z); (772, 333%Z);
   (774, 333%Z); (775, 333%Z); (776, 333%Z); (778, 333%Z); (779, 333%Z); (807, 333%Z); (808, 333%Z); (956, 556%Z);
   (8211, 556%Z); (8212, 1000%Z); (8216, 222%Z); (8217, 222%Z); (8218, 222%Z); (8220, 333%Z); (8221, 333%Z); (8222, 333%Z);
   (8224, 556%Z); (8225, 556%Z); (8226, 350%Z); (8230, 1000%Z); (8240, 1000%Z); (8249, 333%Z); (8250, 333%Z); (8260, 167%Z);
   (8364, 556%Z); (8482, 1000%Z); (8722, 584%Z); (64257, 500%Z); (64258, 500%Z)].
(** builtins.py 256-1558, grouped by the first character *)
Definition k_Helvetica : list (N * list (N * Z)) :=
  [(32, [(84, -50%Z); (86, -50%Z); (87, -40%Z); (89, -90%Z); (221, -90%Z); (376, -90%Z); (8216, -60%Z); (8220, -30%Z)]);
   (44, [(8217, -100%Z); (8221, -100%Z)]);
   (46, [(32, -60%Z); (8217, -100%Z); (8221, -100%Z)]);
   (58, [(32, -50%Z)]);
   (59, [(32, -50%Z)]);
   (65, [(67, -30%Z); (71, -30%Z); (79, -30%Z); (81, -30%Z); (84, -120%Z); (85, -50%Z); (86, -70%Z); (87, -50%Z); (89, -100%Z);
   (117, -30%Z); (118, -40%Z); (119, -40%Z); (121, -40%Z); (199, -30%Z); (210, -30%Z); (211, -30%Z); (212, -30%Z); (213, -30%Z);
   (214, -30%Z); (216, -30%Z); (217, -50%Z); (218, -50%Z); (219, -50%Z); (220, -50%Z); (221, -100%Z); (249, -30%Z); (250, -30%Z);
   (251, -30%Z); (252, -30%Z); (253, -40%Z); (255, -40%Z); (376, -100%Z)]);
   (66, [(44, -20%Z); (46, -20%Z); (85, -10%Z); (217, -10%Z); (218, -10%Z); (219, -10%Z); (220, -10%Z)]);
   (67, [(44, -30%Z); (46, -30%Z)]);
   (68, [(44, -70%Z); (46, -70%Z); (65, -40%Z); (86, -70%Z); (87, -40%Z); (89, -90%Z); (192, -40%Z); (193, -40%Z); (194, -40%Z);
   (195, -40%Z); (196, -40%Z); (197, -40%Z); (221, -90%Z); (376, -90%Z)]);
   (70, [(44, -150%Z); (46, -150%Z); (65, -80%Z); (97, -50%Z); (101, -30%Z); (111, -30%Z); (114, -45%Z); (192, -80%Z); (193, -80%Z);
   (194, -80%Z); (195, -80%Z); (196, -80%Z); (197, -80%Z); (224, -50%Z); (225, -50%Z); (226, -50%Z); (227, -50%Z); (228, -50%Z);
   (229, -50%Z); (232, -30%Z); (233, -30%Z); (234, -30%Z); (235, -30%Z); (242, -30%Z); (243, -30%Z); (244, -30%Z); (245, -30%Z);
   (246, -30%Z); (248, -30%Z)]);
   (74, [(44, -30%Z); (46, -30%Z); (65, -20%Z); (97, -20%Z); (117, -20%Z); (192, -20%Z); (193, -20%Z); (194, -20%Z); (195, -20%Z);
   (196, -20%Z); (197, -20%Z); (224, -20%Z); (225, -20%Z); (226, -20%Z); (227, -20%Z); (228, -20%Z); (229, -20%Z); (249, -20%Z);
   (250, -20%Z); (251, -20%Z); (252, -20%Z)]);
   (75, [(79, -50%Z); (101, -40%Z); (111, -40%Z); (117, -30%Z); (121, -50%Z); (210, -50%Z); (211, -50%Z); (212, -50%Z); (213, -50%Z);
   (214, -50%Z); (216, -50%Z); (232, -40%Z); (233, -40%Z); (234, -40%Z); (235, -40%Z); (242, -40%Z); (243, -40%Z); (244, -40%Z);
   (245, -40%Z); (246, -40%Z); (248, -40%Z); (249, -30%Z); (250, -30%Z); (251, -30%Z); (252, -30%Z); (253, -50%Z); (255, -50%Z)]);
   (76, [(84, -110%Z); (86, -110%Z); (87, -70%Z); (89, -140%Z); (121, -30%Z); (221, -140%Z); (253, -30%Z); (255, -30%Z); (376, -140%Z);
   (8217, -160%Z); (8221, -140%Z)]);
   (79, [(44, -40%Z); (46, -40%Z); (65, -20%Z); (84, -40%Z); (86, -50%Z); (87, -30%Z); (88, -60%Z); (89, -70%Z); (192, -20%Z);
   (193, -20%Z); (194, -20%Z); (195, -20%Z); (196, -20%Z); (197, -20%Z); (221, -70%Z); (376, -70%Z)]);
   (80, [(44, -180%Z); (46, -180%Z); (65, -120%Z); (97, -40%Z); (101, -50%Z); (111, -50%Z); (192, -120%Z); (193, -120%Z); (194, -120%Z);
   (195, -120%Z); (196, -120%Z); (197, -120%Z); (224, -40%Z); (225, -40%Z); (226, -40%Z); (227, -40%Z); (228, -40%Z); (229, -40%Z);
   (232, -50%Z); (233, -50%Z); (234, -50%Z); (235, -50%Z); (242, -50%Z); (243, -50%Z); (244, -50%Z); (245, -50%Z); (246, -50%Z);
   (248, -50%Z)]);
   (81, [(85, -10%Z); (217, -10%Z); (218, -10%Z); (219, -10%Z); (220, -10%Z)]);
   (82, [(79, -20%Z); (84, -30%Z); (85, -40%Z); (86, -50%Z); (87, -30%Z); (89, -50%Z); (210, -20%Z); (211, -20%Z); (212, -20%Z);
   (213, -20%Z); (214, -20%Z); (216, -20%Z); (217, -40%Z); (218, -40%Z); (219, -40%Z); (220, -40%Z); (221, -50%Z); (376, -50%Z)]);
   (83, [(44, -20%Z); (46, -20%Z)]);
   (84, [(44, -120%Z); (45, -140%Z); (46, -120%Z); (58, -20%Z); (59, -20%Z); (65, -120%Z); (79, -40%Z); (97, -120%Z); (101, -120%Z);
   (111, -120%Z); (114, -120%Z); (117, -120%Z); (119, -120%Z); (121, -120%Z); (192, -120%Z); (193, -120%Z); (194, -120%Z); (195, -120%Z);
   (196, -120%Z); (197, -120%Z); (210, -40%Z); (211, -40%Z); (212, -40%Z); (213, -40%Z); (214, -40%Z); (216, -40%Z); (224, -120%Z);
   (225, -120%Z); (226, -120%Z); (227, -60%Z); (228, -120%Z); (229, -120%Z); (232, -60%Z); (233, -120%Z); (234, -120%Z); (235, -120%Z);
   (242, -120%Z); (243, -120%Z); (244, -120%Z); (245, -60%Z); (246, -120%Z); (248, -120%Z); (249, -120%Z); (250, -120%Z); (251, -120%Z);
   (252, -120%Z); (253, -120%Z); (255, -60%Z)]);
   (85, [(44, -40%Z); (46, -40%Z); (65, -40%Z); (192, -40%Z); (193, -40%Z); (194, -40%Z); (195, -40%Z); (196, -40%Z); (197, -40%Z)]);
   (86, [(44, -125%Z); (45, -80%Z); (46, -125%Z); (58, -40%Z); (59, -40%Z); (65, -80%Z); (71, -40%Z); (79, -40%Z); (97, -70%Z);
   (101, -80%Z); (111, -80%Z); (117, -70%Z); (192, -80%Z); (193, -80%Z); (194, -80%Z); (195, -80%Z); (196, -80%Z); (197, -80%Z);
   (210, -40%Z); (211, -40%Z); (212, -40%Z); (213, -40%Z); (214, -40%Z); (216, -40%Z); (224, -70%Z); (225, -70%Z); (226, -70%Z);
   (227, -70%Z); (228, -70%Z); (229, -70%Z); (232, -80%Z); (233, -80%Z); (234, -80%Z); (235, -80%Z); (242, -80%Z); (243, -80%Z);
   (244, -80%Z); (245, -80%Z); (246, -80%Z); (248, -80%Z); (249, -70%Z); (250, -70%Z); (251, -70%Z); (252, -70%Z)]);
   (87, [(44, -80%Z); (45, -40%Z); (46, -80%Z); (65, -50%Z); (79, -20%Z); (97, -40%Z); (101, -30%Z); (111, -30%Z); (117, -30%Z);
   (121, -20%Z); (192, -50%Z); (193, -50%Z); (194, -50%Z); (195, -50%Z); (196, -50%Z); (197, -50%Z); (210, -20%Z); (211, -20%Z);
   (212, -20%Z); (213, -20%Z); (214, -20%Z); (216, -20%Z); (224, -40%Z); (225, -40%Z); (226, -40%Z); (227, -40%Z); (228, -40%Z);
   (229, -40%Z); (232, -30%Z); (233, -30%Z); (234, -30%Z); (235, -30%Z); (242, -30%Z); (243, -30%Z); (244, -30%Z); (245, -30%Z);
   (246, -30%Z); (248, -30%Z); (249, -30%Z); (250, -30%Z); (251, -30%Z); (252, -30%Z); (253, -20%Z); (255, -20%Z)]);
   (89, [(44, -140%Z); (45, -140%Z); (46, -140%Z); (58, -60%Z); (59, -60%Z); (65, -110%Z); (79, -85%Z); (97, -140%Z); (101, -140%Z);
   (105, -20%Z); (111, -140%Z); (117, -110%Z); (192, -110%Z); (193, -110%Z); (194, -110%Z); (195, -110%Z); (196, -110%Z); (197, -110%Z);
   (210, -85%Z); (211, -85%Z); (212, -85%Z); (213, -85%Z); (214, -85%Z); (216, -85%Z); (224, -140%Z); (225, -140%Z); (226, -140%Z);
   (227, -140%Z); (228, -140%Z); (229, -140%Z); (232, -140%Z); (233, -140%Z); (234, -140%Z); (235, -140%Z); (237, -20%Z); (242, -140%Z);
   (243, -140%Z); (244, -140%Z); (245, -140%Z); (246, -140%Z); (248, -140%Z); (249, -110%Z); (250, -110%Z); (251, -110%Z); (252, -110%Z)]);
   (97, [(118, -20%Z); (119, -20%Z); (121, -30%Z); (253, -30%Z); (255, -30%Z)]);
   (98, [(44, -40%Z); (46, -40%Z); (98, -10%Z); (108, -20%Z); (117, -20%Z); (118, -20%Z); (121, -20%Z); (249, -20%Z); (250, -20%Z);
   (251, -20%Z); (252, -20%Z); (253, -20%Z); (255, -20%Z); (322, -20%Z)]);
   (99, [(44, -15%Z); (107, -20%Z)]);
   (101, [(44, -15%Z); (46, -15%Z); (118, -30%Z); (119, -20%Z); (120, -30%Z); (121, -20%Z); (253, -20%Z); (255, -20%Z)]);
   (102, [(44, -30%Z); (46, -30%Z); (97, -30%Z); (101, -30%Z); (111, -30%Z); (224, -30%Z); (225, -30%Z); (226, -30%Z); (227, -30%Z);
   (228, -30%Z); (229, -30%Z); (232, -30%Z); (233, -30%Z); (234, -30%Z); (235, -30%Z); (242, -30%Z); (243, -30%Z); (244, -30%Z);
   (245, -30%Z); (246, -30%Z); (248, -30%Z); (305, -28%Z); (8217, 50%Z); (8221, 60%Z)]);
   (103, [(114, -10%Z)]);
   (104, [(121, -30%Z); (253, -30%Z); (255, -30%Z)]);
   (107, [(101, -20%Z); (111, -20%Z); (232, -20%Z); (233, -20%Z); (234, -20%Z); (235, -20%Z); (242, -20%Z); (243, -20%Z); (244, -20%Z);
   (245, -20%Z); (246, -20%Z); (248, -20%Z)]);
   (109, [(117, -10%Z); (121, -15%Z); (249, -10%Z); (250, -10%Z); (251, -10%Z); (252, -10%Z); (253, -15%Z); (255, -15%Z)]);
   (110, [(117, -10%Z); (118, -20%Z); (121, -15%Z); (249, -10%Z); (250, -10%Z); (251, -10%Z); (252, -10%Z); (253, -15%Z); (255, -15%Z)]);
   (111, [(44, -40%Z); (46, -40%Z); (118, -15%Z); (119, -15%Z); (120, -30%Z); (121, -30%Z); (253, -30%Z); (255, -30%Z)]);
   (112, [(44, -35%Z); (46, -35%Z); (121, -30%Z); (253, -30%Z); (255, -30%Z)]);
   (114, [(44, -50%Z); (46, -50%Z); (58, 30%Z); (59, 30%Z); (97, -10%Z); (105, 15%Z); (107, 15%Z); (108, 15%Z); (109, 25%Z);
   (110, 25%Z); (112, 30%Z); (116, 40%Z); (117, 15%Z); (118, 30%Z); (121, 30%Z); (224, -10%Z); (225, -10%Z); (226, -10%Z);
   (227, -10%Z); (228, -10%Z); (229, -10%Z); (236, 15%Z); (237, 15%Z); (238, 15%Z); (239, 15%Z); (241, 25%Z); (249, 15%Z);
   (250, 15%Z); (251, 15%Z); (252, 15%Z); (253, 30%Z); (255, 30%Z); (322, 15%Z)]);
   (115, [(44, -15%Z); (46, -15%Z); (119, -30%Z)]);
   (118, [(44, -80%Z); (46, -80%Z); (97, -25%Z); (101, -25%Z); (111, -25%Z); (224, -25%Z); (225, -25%Z); (226, -25%Z); (227, -25%Z);
   (228, -25%Z); (229, -25%Z); (232, -25%Z); (233, -25%Z); (234, -25%Z); (235, -25%Z); (242, -25%Z); (243, -25%Z); (244, -25%Z);
   (245, -25%Z); (246, -25%Z); (248, -25%Z)]);
   (119, [(44, -60%Z); (46, -60%Z); (97, -15%Z); (101, -10%Z); (111, -10%Z); (224, -15%Z); (225, -15%Z); (226, -15%Z); (227, -15%Z);
   (228, -15%Z); (229, -15%Z); (232, -10%Z); (233, -10%Z); (234, -10%Z); (235, -10%Z); (242, -10%Z); (243, -10%Z); (244, -10%Z);
   (245, -10%Z); (246, -10%Z); (248, -10%Z)]);
   (120, [(101, -30%Z); (232, -30%Z); (233, -30%Z); (234, -30%Z); (235, -30%Z)]);
   (121, [(44, -100%Z); (46, -100%Z); (97, -20%Z); (101, -20%Z); (111, -20%Z); (224, -20%Z); (225, -20%Z); (226, -20%Z); (227, -20%Z);
   (228, -20%Z); (229, -20%Z); (232, -20%Z); (233, -20%Z); (234, -20%Z); (235, -20%Z); (242, -20%Z); (243, -20%Z); (244, -20%Z);
   (245, -20%Z); (246, -20%Z); (248, -20%Z)]);
   (122, [(101, -15%Z); (111, -15%Z); (232, -15%Z); (233, -15%Z); (234, -15%Z); (235, -15%Z); (242, -15%Z); (243, -15%Z); (244, -15%Z);
   (245, -15%Z); (246, -15%Z); (248, -15%Z)]);
   (192, [(67, -30%Z); (71, -30%Z); (79, -30%Z); (81, -30%Z); (84, -120%Z); (85, -50%Z); (86, -70%Z); (87, -50%Z); (89, -100%Z);
   (117, -30%Z); (118, -40%Z); (119, -40%Z); (121, -40%Z); (199, -30%Z); (210, -30%Z); (211, -30%Z); (212, -30%Z); (213, -30%Z);
   (214, -30%Z); (216, -30%Z); (217, -50%Z); (218, -50%Z); (219, -50%Z); (220, -50%Z); (221, -100%Z); (249, -30%Z); (250, -30%Z);
   (251, -30%Z); (252, -30%Z); (253, -40%Z); (255, -40%Z); (376, -100%Z)]);
   (193, [(67, -30%Z); (71, -30%Z); (79, -30%Z); (81, -30%Z); (84, -120%Z); (85, -50%Z); (86, -70%Z); (87, -50%Z); (89, -100%Z);
   (117, -30%Z); (118, -40%Z); (119, -40%Z); (121, -40%Z); (199, -30%Z); (210, -30%Z); (211, -30%Z); (212, -30%Z); (213, -30%Z);
   (214, -30%Z); (216, -30%Z); (217, -50%Z); (218, -50%Z); (219, -50%Z); (220, -50%Z); (221, -100%Z); (249, -30%Z); (250, -30%Z);
   (251, -30%Z); (252, -30%Z); (253, -40%Z); (255, -40%Z); (376, -100%Z)]);
   (194, [(67, -30%Z); (71, -30%Z); (79, -30%Z); (81, -30%Z); (84, -120%Z); (85, -50%Z); (86, -70%Z); (87, -50%Z); (89, -100%Z);
   (117, -30%Z); (118, -40%Z); (119, -40%Z); (121, -40%Z); (199, -30%Z); (210, -30%Z); (211, -30%Z); (212, -30%Z); (213, -30%Z);
   (214, -30%Z); (216, -30%Z); (217, -50%Z); (218, -50%Z); (219, -50%Z); (220, -50%Z); (221, -100%Z); (249, -30%Z); (250, -30%Z);
   (251, -30%Z); (252, -30%Z); (253, -40%Z); (255, -40%Z); (376, -100%Z)]);
   (195, [(67, -30%Z); (71, -30%Z); (79, -30%Z); (81, -30%Z); (84, -120%Z); (85, -50%Z); (86, -70%Z); (87, -50%Z); (89, -100%Z);
   (117, -30%Z); (118, -40%Z); (119, -40%Z); (121, -40%Z); (199, -30%Z); (210, -30%Z); (211, -30%Z); (212, -30%Z); (213, -30%Z);
   (214, -30%Z); (216, -30%Z); (217, -50%Z); (218, -50%Z); (219, -50%Z); (220, -50%Z); (221, -100%Z); (249, -30%Z); (250, -30%Z);
   (251, -30%Z); (252, -30%Z); (253, -40%Z); (255, -40%Z); (376, -100%Z)]);
   (196, [(67, -30%Z); (71, -30%Z); (79, -30%Z); (81, -30%Z); (84, -120%Z); (85, -50%Z); (86, -70%Z); (87, -50%Z); (89, -100%Z);
   (117, -30%Z); (118, -40%Z); (119, -40%Z); (121, -40%Z); (199, -30%Z); (210, -30%Z); (211, -30%Z); (212, -30%Z); (213, -30%Z);
   (214, -30%Z); (216, -30%Z); (217, -50%Z); (218, -50%Z); (219, -50%Z); (220, -50%Z); (221, -100%Z); (249, -30%Z); (250, -30%Z);
   (251, -30%Z); (252, -30%Z); (253, -40%Z); (255, -40%Z); (376, -100%Z)]);
   (197, [(67, -30%Z); (71, -30%Z); (79, -30%Z); (81, -30%Z); (84, -120%Z); (85, -50%Z); (86, -70%Z); (87, -50%Z); (89, -100%Z);
   (117, -30%Z); (118, -40%Z); (119, -40%Z); (121, -40%Z); (199, -30%Z); (210, -30%Z); (211, -30%Z); (212, -30%Z); (213, -30%Z);
   (214, -30%Z); (216, -30%Z); (217, -50%Z); (218, -50%Z); (219, -50%Z); (220, -50%Z); (221, -100%Z); (249, -30%Z); (250, -30%Z);
   (251, -30%Z); (252, -30%Z); (253, -40%Z); (255, -40%Z); (376, -100%Z)]);
   (199, [(44, -30%Z); (46, -30%Z)]);
   (210, [(44, -40%Z); (46, -40%Z); (65, -20%Z); (84, -40%Z); (86, -50%Z); (87, -30%Z); (88, -60%Z); (89, -70%Z); (192, -20%Z);
   (193, -20%Z); (194, -20%Z); (195, -20%Z); (196, -20%Z); (197, -20%Z); (221, -70%Z); (376, -70%Z)]);
   (211, [(44, -40%Z); (46, -40%Z); (65, -20%Z); (84, -40%Z); (86, -50%Z); (87, -30%Z); (88, -60%Z); (89, -70%Z); (192, -20%Z);
   (193, -20%Z); (194, -20%Z); (195, -20%Z); (196, -20%Z); (197, -20%Z); (221, -70%Z); (376, -70%Z)]);
   (212, [(44, -40%Z); (46, -40%Z); (65, -20%Z); (84, -40%Z); (86, -50%Z); (87, -30%Z); (88, -60%Z); (89, -70%Z); (192, -20%Z);
   (193, -20%Z); (194, -20%Z); (195, -20%Z); (196, -20%Z); (197, -20%Z); (221, -70%Z); (376, -70%Z)]);
   (213, [(44, -40%Z); (46, -40%Z); (65, -20%Z); (84, -40%Z); (86, -50%Z); (87, -30%Z); (88, -60%Z); (89, -70%Z); (192, -20%Z);
   (193, -20%Z); (194, -20%Z); (195, -20%Z); (196, -20%Z); (197, -20%Z); (221, -70%Z); (376, -70%Z)]);
   (214, [(44, -40%Z); (46, -40%Z); (65, -20%Z); (84, -40%Z); (86, -50%Z); (87, -30%Z); (88, -60%Z); (89, -70%Z); (192, -20%Z);
   (193, -20%Z); (194, -20%Z); (195, -20%Z); (196, -20%Z); (197, -20%Z); (221, -70%Z); (376, -70%Z)]);
   (216, [(44, -40%Z); (46, -40%Z); (65, -20%Z); (84, -40%Z); (86, -50%Z); (87, -30%Z); (88, -60%Z); (89, -70%Z); (192, -20%Z);
   (193, -20%Z); (194, -20%Z); (195, -20%Z); (196, -20%Z); (197, -20%Z); (221, -70%Z); (376, -70%Z)]);
   (217, [(44, -40%Z); (46, -40%Z); (65, -40%Z); (192, -40%Z); (193, -40%Z); (194, -40%Z); (195, -40%Z); (196, -40%Z); (197, -40%Z)]);
   (218, [(44, -40%Z); (46, -40%Z); (65, -40%Z); (192, -40%Z); (193, -40%Z); (194, -40%Z); (195, -40%Z); (196, -40%Z); (197, -40%Z)]);
   (219, [(44, -40%Z); (46, -40%Z); (65, -40%Z); (192, -40%Z); (193, -40%Z); (194, -40%Z); (195, -40%Z); (196, -40%Z); (197, -40%Z)]);
   (220, [(44, -40%Z); (46, -40%Z); (65, -40%Z); (192, -40%Z); (193, -40%Z); (194, -40%Z); (195, -40%Z); (196, -40%Z); (197, -40%Z)]);
   (221, [(44, -140%Z); (45, -140%Z); (46, -140%Z); (58, -60%Z); (59, -60%Z); (65, -110%Z); (79, -85%Z); (97, -140%Z); (101, -140%Z);
   (105, -20%Z); (111, -140%Z); (117, -110%Z); (192, -110%Z); (193, -110%Z); (194, -110%Z); (195, -110%Z); (196, -110%Z); (197, -110%Z);
   (210, -85%Z); (211, -85%Z); (212, -85%Z); (213, -85%Z); (214, -85%Z); (216, -85%Z); (224, -140%Z); (225, -140%Z); (226, -140%Z);
   (227, -70%Z); (228, -140%Z); (229, -140%Z); (232, -140%Z); (233, -140%Z); (234, -140%Z); (235, -140%Z); (237, -20%Z); (242, -140%Z);
   (243, -140%Z); (244, -140%Z); (245, -140%Z); (246, -140%Z); (248, -140%Z); (249, -110%Z); (250, -110%Z); (251, -110%Z); (252, -110%Z)]);
   (224, [(118, -20%Z); (119, -20%Z); (121, -30%Z); (253, -30%Z); (255, -30%Z)]);
   (225, [(118, -20%Z); (119, -20%Z); (121, -30%Z); (253, -30%Z); (255, -30%Z)]);
   (226, [(118, -20%Z); (119, -20%Z); (121, -30%Z); (253, -30%Z); (255, -30%Z)]);
   (227, [(118, -20%Z); (119, -20%Z); (121, -30%Z); (253, -30%Z); (255, -30%Z)]);
   (228, [(118, -20%Z); (119, -20%Z); (121, -30%Z); (253, -30%Z); (255, -30%Z)]);
   (229, [(118, -20%Z); (119, -20%Z); (121, -30%Z); (253, -30%Z); (255, -30%Z)]);
   (231, [(44, -15%Z); (107, -20%Z)]);
   (232, [(44, -15%Z); (46, -15%Z); (118, -30%Z); (119, -20%Z); (120, -30%Z); (121, -20%Z); (253, -20%Z); (255, -20%Z)]);
   (233, [(44, -15%Z); (46, -15%Z); (118, -30%Z); (119, -20%Z); (120, -30%Z); (121, -20%Z); (253, -20%Z); (255, -20%Z)]);
   (234, [(44, -15%Z); (46, -15%Z); (118, -30%Z); (119, -20%Z); (120, -30%Z); (121, -20%Z); (253, -20%Z); (255, -20%Z)]);
   (235, [(44, -15%Z); (46, -15%Z); (118, -30%Z); (119, -20%Z); (120, -30%Z); (121, -20%Z); (253, -20%Z); (255, -20%Z)]);
   (241, [(117, -10%Z); (118, -20%Z); (121, -15%Z); (249, -10%Z); (250, -10%Z); (251, -10%Z); (252, -10%Z); (253, -15%Z); (255, -15%Z)]);
   (242, [(44, -40%Z); (46, -40%Z); (118, -15%Z); (119, -15%Z); (120, -30%Z); (121, -30%Z); (253, -30%Z); (255, -30%Z)]);
   (243, [(44, -40%Z); (46, -40%Z); (118, -15%Z); (119, -15%Z); (120, -30%Z); (121, -30%Z); (253, -30%Z); (255, -30%Z)]);
   (244, [(44, -40%Z); (46, -40%Z); (118, -15%Z); (119, -15%Z); (120, -30%Z); (121, -30%Z); (253, -30%Z); (255, -30%Z)]);
   (245, [(44, -40%Z); (46, -40%Z); (118, -15%Z); (119, -15%Z); (120, -30%Z); (121, -30%Z); (253, -30%Z); (255, -30%Z)]);
   (246, [(44, -40%Z); (46, -40%Z); (118, -15%Z); (119, -15%Z); (120, -30%Z); (121, -30%Z); (253, -30%Z); (255, -30%Z)]);
   (248, [(44, -95%Z); (46, -95%Z); (97, -55%Z); (98, -55%Z); (99, -55%Z); (100, -55%Z); (101, -55%Z); (102, -55%Z); (103, -55%Z);
   (104, -55%Z); (105, -55%Z); (106, -55%Z); (107, -55%Z); (108, -55%Z); (109, -55%Z); (110, -55%Z); (111, -55%Z); (112, -55%Z);
   (113, -55%Z); (114, -55%Z); (115, -55%Z); (116, -55%Z); (117, -55%Z); (118, -70%Z); (119, -70%Z); (120, -85%Z); (121, -70%Z);
   (122, -55%Z); (224, -55%Z); (225, -55%Z); (226, -55%Z); (227, -55%Z); (228, -55%Z); (229, -55%Z); (231, -55%Z); (232, -55%Z);
   (233, -55%Z); (234, -55%Z); (235, -55%Z); (236, -55%Z); (237, -55%Z); (238, -55%Z); (239, -55%Z); (241, -55%Z); (242, -55%Z);
   (243, -55%Z); (244, -55%Z); (245, -55%Z); (246, -55%Z); (248, -55%Z); (249, -55%Z); (250, -55%Z); (251, -55%Z); (252, -55%Z);
   (253, -70%Z); (255, -70%Z); (322, -55%Z); (353, -55%Z); (382, -55%Z)]);
   (253, [(44, -100%Z); (46, -100%Z); (97, -20%Z); (101, -20%Z); (111, -20%Z); (224, -20%Z); (225, -20%Z); (226, -20%Z); (227, -20%Z);
   (228, -20%Z); (229, -20%Z); (232, -20%Z); (233, -20%Z); (234, -20%Z); (235, -20%Z); (242, -20%Z); (243, -20%Z); (244, -20%Z);
   (245, -20%Z); (246, -20%Z); (248, -20%Z)]);
   (255, [(44, -100%Z); (46, -100%Z); (97, -20%Z); (101, -20%Z); (111, -20%Z); (224, -20%Z); (225, -20%Z); (226, -20%Z); (227, -20%Z);
   (228, -20%Z); (229, -20%Z); (232, -20%Z); (233, -20%Z); (234, -20%Z); (235, -20%Z); (242, -20%Z); (243, -20%Z); (244, -20%Z);
   (245, -20%Z); (246, -20%Z); (248, -20%Z)]);
   (321, [(84, -110%Z); (86, -110%Z); (87, -70%Z); (89, -140%Z); (121, -30%Z); (221, -140%Z); (253, -30%Z); (255, -30%Z); (376, -140%Z);
   (8217, -160%Z); (8221, -140%Z)]);
   (352, [(44, -20%Z); (46, -20%Z)]);
   (353, [(44, -15%Z); (46, -15%Z); (119, -30%Z)]);
   (376, [(44, -140%Z); (45, -140%Z); (46, -140%Z); (58, -60%Z); (59, -60%Z); (65, -110%Z); (79, -85%Z); (97, -140%Z); (101, -140%Z);
   (105, -20%Z); (111, -140%Z); (117, -110%Z); (192, -110%Z); (193, -110%Z); (194, -110%Z); (195, -110%Z); (196, -110%Z); (197, -110%Z);
   (210, -85%Z); (211, -85%Z); (212, -85%Z); (213, -85%Z); (214, -85%Z); (216, -85%Z); (224, -140%Z); (225, -140%Z); (226, -140%Z);
   (227, -70%Z); (228, -140%Z); (229, -140%Z); (232, -140%Z); (233, -140%Z); (234, -140%Z); (235, -140%Z); (237, -20%Z); (242, -140%Z);
   (243, -140%Z); (244, -140%Z); (245, -140%Z); (246, -140%Z); (248, -140%Z); (249, -110%Z); (250, -110%Z); (251, -110%Z); (252, -110%Z)]);
   (382, [(101, -15%Z); (111, -15%Z); (232, -15%Z); (233, -15%Z); (234, -15%Z); (235, -15%Z); (242, -15%Z); (243, -15%Z); (244, -15%Z);
   (245, -15%Z); (246, -15%Z); (248, -15%Z)]);
   (8216, [(8216, -57%Z)]);
   (8217, [(32, -70%Z); (100, -50%Z); (114, -50%Z); (115, -50%Z); (353, -50%Z); (8217, -57%Z)]);
   (8221, [(32, -40%Z)])].
(** builtins.py 1563-1796 *)
Definition w_Helvetica_Bold : list (N * Z) :=
  [(32, 278%Z); (33, 333%Z); (34, 474%Z); (35, 556%Z); (36, 556%Z); (37, 889%Z); (38, 722%Z); (39, 238%Z);
   (40, 333%Z); (41, 333%Z); (42, 389%Z); (43, 584%Z); (44, 278%Z); (45, 333%Z); (46, 278%Z); (47, 278%Z);
   (48, 556%Z); (49, 556%Z); (50, 556%Z); (51, 556%Z); (52, 556%Z); (53, 556%Z); (54, 556%Z); (55, 556%Z);
   (56, 556%Z); (57, 556%Z); (58, 333%Z); (59, 333%Z); (60, 584%Z); (61, 584%Z); (62, 584%Z); (63, 611%Z);
   (64, 975%Z); (65, 722%Z); (66, 722%Z); (67, 722%Z); (68, 722%Z); (69, 667%Z); (70, 611%Z); (71, 778%Z);
   (72, 722%Z); (73, 278%Z); (74, 556%Z); (75, 722%Z); (76, 611%Z); (77, 833%Z); (78, 722%Z); (79, 778%Z);
   (80, 667%Z); (81, 778%Z); (82, 722%Z); (83, 667%Z); (84, 611%Z); (85, 722%Z); (86, 667%Z); (87, 944%Z);
   (88, 667%Z); (89, 667%Z); (90, 611%Z); (91, 333%Z); (92, 278%Z); (93, 333%Z); (94, 584%Z); (95, 556%Z);
   (96, 333%Z); (97, 556%Z); (98, 611%Z); (99, 556%Z); (100, 611%Z); (101, 556%Z); (102, 333%Z); (103, 611%Z);
   (104, 611%Z); (105, 278%Z); (106, 278%Z); (107, 556%Z); (108, 278%Z); (109, 889%Z); (110, 611%Z); (111, 611%Z);
   (112, 611%Z); (113, 611%Z); (114, 389%Z); (115, 556%Z); (116, 333%Z); (117, 611%Z); (118, 556%Z); (119, 778%Z);
   (120, 556%Z); (121, 556%Z); (122, 500%Z); (123, 389%Z); (124, 280%Z); (125, 389%Z); (126, 584%Z); (161, 333%Z);
   (162, 556%Z); (163, 556%Z); (164, 556%Z); (165, 556%Z); (166, 280%Z); (167, 556%Z); (169, 737%Z); (170, 370%Z);
   (171, 556%Z); (172, 584%Z); (174, 737%Z); (176, 400%Z); (177, 584%Z); (178, 333%Z); (179, 333%Z); (182, 556%Z);
   (183, 278%Z); (185, 333%Z); (186, 365%Z); (187, 556%Z); (188, 834%Z); (189, 834%Z); (190, 834%Z); (191, 611%Z);
   (192, 722%Z); (193, 722%Z); (194, 722%Z); (195, 722%Z); (196, 722%Z); (197, 722%Z); (198, 1000%Z); (199, 722%Z);
   (200, 667%Z); (201, 667%Z); (202, 667%Z); (203, 667%Z); (204, 278%Z); (205, 278%Z); (206, 278%Z); (207, 278%Z);
   (208, 722%Z); (209, 722%Z); (210, 778%Z); (211, 778%Z); (212, 778%Z); (213, 778%Z); (214, 778%Z); (215, 584%Z);
   (216, 778%Z); (217, 722%Z); (218, 722%Z); (219, 722%Z); (220, 722%Z); (221, 667%Z); (222, 667%Z); (223, 611%Z);
   (224, 556%Z); (225, 556%Z); (226, 556%Z); (227, 556%Z); (228, 556%Z); (229, 556%Z); (230, 889%Z); (231, 556%Z);
   (232, 556%Z); (233, 556%Z); (234, 556%Z); (235, 556%Z); (236, 278%Z); (237, 278%Z); (238, 278%Z); (239, 278%Z);
   (240, 611%Z); (241, 611%Z); (242, 611%Z); (243, 611%Z); (244, 611%Z); (245, 611%Z); (246, 611%Z); (247, 584%Z);
   (248, 611%Z); (249, 611%Z); (250, 611%Z); (251, 611%Z); (252, 611%Z); (253, 556%Z); (254, 611%Z); (255, 556%Z);
   (305, 278%Z); (321, 611%Z); (322, 278%Z); (338, 1000%Z); (339, 944%Z); (352, 667%Z); (353, 556%Z); (376, 667%Z);
   (381, 611%Z); (382, 500%Z); (402, 556%Z); (710, 333%Z); (711, 333%Z); (769, 333%Z); (771, 333%Z); (772, 333%Z);
   (774, 333%Z); (775, 333%Z); (776, 333%Z); (778, 333%Z); (779, 333%Z); (807, 333%Z); (808, 333%Z); (956, 611%Z);
   (8211, 556%Z); (8212, 1000%Z); (8216, 278%Z); (8217, 278%Z); (8218, 278%Z); (8220, 500%Z); (8221, 500%Z); (8222, 500%Z);
   (8224, 556%Z); (8225, 556%Z); (8226, 350%Z); (8230, 1000%Z); (8240, 1000%Z); (8249, 333%Z); (8250, 333%Z); (8260, 167%Z);
   (8364, 556%Z); (8482, 1000%Z); (8722, 584%Z); (64257, 611%Z); (64258, 611%Z)].
(** builtins.py 1797-2982, grouped by the first character *)
Definition k_Helvetica_Bold : list (N * list (N * Z)) :=
  [(32, [(84, -100%Z); (86, -80%Z); (87, -80%Z); (89, -120%Z); (221, -120%Z); (376, -120%Z); (8216, -60%Z); (8220, -80%Z)]);
   (44, [(32, -40%Z); (8217, -120%Z); (8221, -120%Z)]);
   (46, [(32, -40%Z); (8217, -120%Z); (8221, -120%Z)]);
   (58, [(32, -40%Z)]);
   (59, [(32, -40%Z)]);
   (65, [(67, -40%Z); (71, -50%Z); (79, -40%Z); (81, -40%Z); (84, -90%Z); (85, -50%Z); (86, -80%Z); (87, -60%Z); (89, -110%Z);
   (117, -30%Z); (118, -40%Z); (119, -30%Z); (121, -30%Z); (199, -40%Z); (210, -40%Z); (211, -40%Z); (212, -40%Z); (213, -40%Z);
   (214, -40%Z); (216, -40%Z); (217, -50%Z); (218, -50%Z); (219, -50%Z); (220, -50%Z); (221, -110%Z); (249, -30%Z); (250, -30%Z);
   (251, -30%Z); (252, -30%Z); (253, -30%Z); (255, -30%Z); (376, -110%Z)]);
   (66, [(65, -30%Z); (85, -10%Z); (192, -30%Z); (193, -30%Z); (194, -30%Z); (195, -30%Z); (196, -30%Z); (197, -30%Z); (217, -10%Z);
   (218, -10%Z); (219, -10%Z); (220, -10%Z)]);
   (68, [(44, -30%Z); (46, -30%Z); (65, -40%Z); (86, -40%Z); (87, -40%Z); (89, -70%Z); (192, -40%Z); (193, -40%Z); (194, -40%Z);
   (195, -40%Z); (196, -40%Z); (197, -40%Z); (221, -70%Z); (376, -70%Z)]);
   (70, [(44, -100%Z); (46, -100%Z); (65, -80%Z); (97, -20%Z); (192, -80%Z); (193, -80%Z); (194, -80%Z); (195, -80%Z); (196, -80%Z);
   (197, -80%Z); (224, -20%Z); (225, -20%Z); (226, -20%Z); (227, -20%Z); (228, -20%Z); (229, -20%Z)]);
   (74, [(44, -20%Z); (46, -20%Z); (65, -20%Z); (117, -20%Z); (192, -20%Z); (193, -20%Z); (194, -20%Z); (195, -20%Z); (196, -20%Z);
   (197, -20%Z); (249, -20%Z); (250, -20%Z); (251, -20%Z); (252, -20%Z)]);
   (75, [(79, -30%Z); (101, -15%Z); (111, -35%Z); (117, -30%Z); (121, -40%Z); (210, -30%Z); (211, -30%Z); (212, -30%Z); (213, -30%Z);
   (214, -30%Z); (216, -30%Z); (232, -15%Z); (233, -15%Z); (234, -15%Z); (235, -15%Z); (242, -35%Z); (243, -35%Z); (244, -35%Z);
   (245, -35%Z); (246, -35%Z); (248, -35%Z); (249, -30%Z); (250, -30%Z); (251, -30%Z); (252, -30%Z); (253, -40%Z); (255, -40%Z)]);
   (76, [(84, -90%Z); (86, -110%Z); (87, -80%Z); (89, -120%Z); (121, -30%Z); (221, -120%Z); (253, -30%Z); (255, -30%Z); (376, -120%Z);
   (8217, -140%Z); (8221, -140%Z)]);
   (79, [(44, -40%Z); (46, -40%Z); (65, -50%Z); (84, -40%Z); (86, -50%Z); (87, -50%Z); (88, -50%Z); (89, -70%Z); (192, -50%Z);
   (193, -50%Z); (194, -50%Z); (195, -50%Z); (196, -50%Z); (197, -50%Z); (221, -70%Z); (376, -70%Z)]);
   (80, [(44, -120%Z); (46, -120%Z); (65, -100%Z); (97, -30%Z); (101, -30%Z); (111, -40%Z); (192, -100%Z); (193, -100%Z); (194, -100%Z);
   (195, -100%Z); (196, -100%Z); (197, -100%Z); (224, -30%Z); (225, -30%Z); (226, -30%Z); (227, -30%Z); (228, -30%Z); (229, -30%Z);
   (232, -30%Z); (233, -30%Z); (234, -30%Z); (235, -30%Z); (242, -40%Z); (243, -40%Z); (244, -40%Z); (245, -40%Z); (246, -40%Z);
   (248, -40%Z)]);
   (81, [(44, 20%Z); (46, 20%Z); (85, -10%Z); (217, -10%Z); (218, -10%Z); (219, -10%Z); (220, -10%Z)]);
   (82, [(79, -20%Z); (84, -20%Z); (85, -20%Z); (86, -50%Z); (87, -40%Z); (89, -50%Z); (210, -20%Z); (211, -20%Z); (212, -20%Z);
   (213, -20%Z); (214, -20%Z); (216, -20%Z); (217, -20%Z); (218, -20%Z); (219, -20%Z); (220, -20%Z); (221, -50%Z); (376, -50%Z)]);
   (84, [(44, -80%Z); (45, -120%Z); (46, -80%Z); (58, -40%Z); (59, -40%Z); (65, -90%Z); (79, -40%Z); (97, -80%Z); (101, -60%Z);
   (111, -80%Z); (114, -80%Z); (117, -90%Z); (119, -60%Z); (121, -60%Z); (192, -90%Z); (193, -90%Z); (194, -90%Z); (195, -90%Z);
   (196, -90%Z); (197, -90%Z); (210, -40%Z); (211, -40%Z); (212, -40%Z); (213, -40%Z); (214, -40%Z); (216, -40%Z); (224, -80%Z);
   (225, -80%Z); (226, -80%Z); (227, -80%Z); (228, -80%Z); (229, -80%Z); (232, -60%Z); (233, -60%Z); (234, -60%Z); (235, -60%Z);
   (242, -80%Z); (243, -80%Z); (244, -80%Z); (245, -80%Z); (246, -80%Z); (248, -80%Z); (249, -90%Z); (250, -90%Z); (251, -90%Z);
   (252, -90%Z); (253, -60%Z); (255, -60%Z)]);
   (85, [(44, -30%Z); (46, -30%Z); (65, -50%Z); (192, -50%Z); (193, -50%Z); (194, -50%Z); (195, -50%Z); (196, -50%Z); (197, -50%Z)]);
   (86, [(44, -120%Z); (45, -80%Z); (46, -120%Z); (58, -40%Z); (59, -40%Z); (65, -80%Z); (71, -50%Z); (79, -50%Z); (97, -60%Z);
   (101, -50%Z); (111, -90%Z); (117, -60%Z); (192, -80%Z); (193, -80%Z); (194, -80%Z); (195, -80%Z); (196, -80%Z); (197, -80%Z);
   (210, -50%Z); (211, -50%Z); (212, -50%Z); (213, -50%Z); (214, -50%Z); (216, -50%Z); (224, -60%Z); (225, -60%Z); (226, -60%Z);
   (227, -60%Z); (228, -60%Z); (229, -60%Z); (232, -50%Z); (233, -50%Z); (234, -50%Z); (235, -50%Z); (242, -90%Z); (243, -90%Z);
   (244, -90%Z); (245, -90%Z); (246, -90%Z); (248, -90%Z); (249, -60%Z); (250, -60%Z); (251, -60%Z); (252, -60%Z)]);
   (87, [(44, -80%Z); (45, -40%Z); (46, -80%Z); (58, -10%Z); (59, -10%Z); (65, -60%Z); (79, -20%Z); (97, -40%Z); (101, -35%Z);
   (111, -60%Z); (117, -45%Z); (121, -20%Z); (192, -60%Z); (193, -60%Z); (194, -60%Z); (195, -60%Z); (196, -60%Z); (197, -60%Z);
   (210, -20%Z); (211, -20%Z); (212, -20%Z); (213, -20%Z); (214, -20%Z); (216, -20%Z); (224, -40%Z); (225, -40%Z); (226, -40%Z);
   (227, -40%Z); (228, -40%Z); (229, -40%Z); (232, -35%Z); (233, -35%Z); (234, -35%Z); (235, -35%Z); (242, -60%Z); (243, -60%Z);
   (244, -60%Z); (245, -60%Z); (246, -60%Z); (248, -60%Z); (249, -45%Z); (250, -45%Z); (251, -45%Z); (252, -45%Z); (253, -20%Z);
   (255, -20%Z)]);
   (89, [(44, -100%Z); (46, -100%Z); (58, -50%Z); (59, -50%Z); (65, -110%Z); (79, -70%Z); (97, -90%Z); (101, -80%Z); (111, -100%Z);
   (117, -100%Z); (192, -110%Z); (193, -110%Z); (194, -110%Z); (195, -110%Z); (196, -110%Z); (197, -110%Z); (210, -70%Z); (211, -70%Z);
   (212, -70%Z); (213, -70%Z); (214, -70%Z); (216, -70%Z); (224, -90%Z); (225, -90%Z); (226, -90%Z); (227, -90%Z); (228, -90%Z);
   (229, -90%Z); (232, -80%Z); (233, -80%Z); (234, -80%Z); (235, -80%Z); (242, -100%Z); (243, -100%Z); (244, -100%Z); (245, -100%Z);
   (246, -100%Z); (248, -100%Z); (249, -100%Z); (250, -100%Z); (251, -100%Z); (252, -100%Z)]);
   (97, [(103, -10%Z); (118, -15%Z); (119, -15%Z); (121, -20%Z); (253, -20%Z); (255, -20%Z)]);
   (98, [(108, -10%Z); (117, -20%Z); (118, -20%Z); (121, -20%Z); (249, -20%Z); (250, -20%Z); (251, -20%Z); (252, -20%Z); (253, -20%Z);
   (255, -20%Z); (322, -10%Z)]);
   (99, [(104, -10%Z); (107, -20%Z); (108, -20%Z); (121, -10%Z); (253, -10%Z); (255, -10%Z); (322, -20%Z)]);
   (100, [(100, -10%Z); (118, -15%Z); (119, -15%Z); (121, -15%Z); (253, -15%Z); (255, -15%Z)]);
   (101, [(44, 10%Z); (46, 20%Z); (118, -15%Z); (119, -15%Z); (120, -15%Z); (121, -15%Z); (253, -15%Z); (255, -15%Z)]);
   (102, [(44, -10%Z); (46, -10%Z); (101, -10%Z); (111, -20%Z); (232, -10%Z); (233, -10%Z); (234, -10%Z); (235, -10%Z); (242, -20%Z);
   (243, -20%Z); (244, -20%Z); (245, -20%Z); (246, -20%Z); (248, -20%Z); (8217, 30%Z); (8221, 30%Z)]);
   (103, [(101, 10%Z); (103, -10%Z); (232, 10%Z); (233, 10%Z); (234, 10%Z); (235, 10%Z)]);
   (104, [(121, -20%Z); (253, -20%Z); (255, -20%Z)]);
   (107, [(111, -15%Z); (242, -15%Z); (243, -15%Z); (244, -15%Z); (245, -15%Z); (246, -15%Z); (248, -15%Z)]);
   (108, [(119, -15%Z); (121, -15%Z); (253, -15%Z); (255, -15%Z)]);
   (109, [(117, -20%Z); (121, -30%Z); (249, -20%Z); (250, -20%Z); (251, -20%Z); (252, -20%Z); (253, -30%Z); (255, -30%Z)]);
   (110, [(117, -10%Z); (118, -40%Z); (121, -20%Z); (249, -10%Z); (250, -10%Z); (251, -10%Z); (252, -10%Z); (253, -20%Z); (255, -20%Z)]);
   (111, [(118, -20%Z); (119, -15%Z); (120, -30%Z); (121, -20%Z); (253, -20%Z); (255, -20%Z)]);
   (112, [(121, -15%Z); (253, -15%Z); (255, -15%Z)]);
   (114, [(44, -60%Z); (45, -20%Z); (46, -60%Z); (99, -20%Z); (100, -20%Z); (103, -15%Z); (111, -20%Z); (113, -20%Z); (115, -15%Z);
   (116, 20%Z); (118, 10%Z); (121, 10%Z); (231, -20%Z); (242, -20%Z); (243, -20%Z); (244, -20%Z); (245, -20%Z); (246, -20%Z);
   (248, -20%Z); (253, 10%Z); (255, 10%Z); (353, -15%Z)]);
   (115, [(119, -15%Z)]);
   (118, [(44, -80%Z); (46, -80%Z); (97, -20%Z); (111, -30%Z); (224, -20%Z); (225, -20%Z); (226, -20%Z); (227, -20%Z); (228, -20%Z);
   (229, -20%Z); (242, -30%Z); (243, -30%Z); (244, -30%Z); (245, -30%Z); (246, -30%Z); (248, -30%Z)]);
   (119, [(44, -40%Z); (46, -40%Z); (111, -20%Z); (242, -20%Z); (243, -20%Z); (244, -20%Z); (245, -20%Z); (246, -20%Z); (248, -20%Z)]);
   (120, [(101, -10%Z); (232, -10%Z); (233, -10%Z); (234, -10%Z); (235, -10%Z)]);
   (121, [(44, -80%Z); (46, -80%Z); (97, -30%Z); (101, -10%Z); (111, -25%Z); (224, -30%Z); (225, -30%Z); (226, -30%Z); (227, -30%Z);
   (228, -30%Z); (229, -30%Z); (232, -10%Z); (233, -10%Z); (234, -10%Z); (235, -10%Z); (242, -25%Z); (243, -25%Z); (244, -25%Z);
   (245, -25%Z); (246, -25%Z); (248, -25%Z)]);
   (122, [(101, 10%Z); (232, 10%Z); (233, 10%Z); (234, 10%Z); (235, 10%Z)]);
   (192, [(67, -40%Z); (71, -50%Z); (79, -40%Z); (81, -40%Z); (84, -90%Z); (85, -50%Z); (86, -80%Z); (87, -60%Z); (89, -110%Z);
   (117, -30%Z); (118, -40%Z); (119, -30%Z); (121, -30%Z); (199, -40%Z); (210, -40%Z); (211, -40%Z); (212, -40%Z); (213, -40%Z);
   (214, -40%Z); (216, -40%Z); (217, -50%Z); (218, -50%Z); (219, -50%Z); (220, -50%Z); (221, -110%Z); (249, -30%Z); (250, -30%Z);
   (251, -30%Z); (252, -30%Z); (253, -30%Z); (255, -30%Z); (376, -110%Z)]);
   (193, [(67, -40%Z); (71, -50%Z); (79, -40%Z); (81, -40%Z); (84, -90%Z); (85, -50%Z); (86, -80%Z); (87, -60%Z); (89, -110%Z);
   (117, -30%Z); (118, -40%Z); (119, -30%Z); (121, -30%Z); (199, -40%Z); (210, -40%Z); (211, -40%Z); (212, -40%Z); (213, -40%Z);
   (214, -40%Z); (216, -40%Z); (217, -50%Z); (218, -50%Z); (219, -50%Z); (220, -50%Z); (221, -110%Z); (249, -30%Z); (250, -30%Z);
   (251, -30%Z); (252, -30%Z); (253, -30%Z); (255, -30%Z); (376, -110%Z)]);
   (194, [(67, -40%Z); (71, -50%Z); (79, -40%Z); (81, -40%Z); (84, -90%Z); (85, -50%Z); (86, -80%Z); (87, -60%Z); (89, -110%Z);
   (117, -30%Z); (118, -40%Z); (119, -30%Z); (121, -30%Z); (199, -40%Z); (210, -40%Z); (211, -40%Z); (212, -40%Z); (213, -40%Z);
   (214, -40%Z); (216, -40%Z); (217, -50%Z); (218, -50%Z); (219, -50%Z); (220, -50%Z); (221, -110%Z); (249, -30%Z); (250, -30%Z);
   (251, -30%Z); (252, -30%Z); (253, -30%Z); (255, -30%Z); (376, -110%Z)]);
   (195, [(67, -40%Z); (71, -50%Z); (79, -40%Z); (81, -40%Z); (84, -90%Z); (85, -50%Z); (86, -80%Z); (87, -60%Z); (89, -110%Z);
   (117, -30%Z); (118, -40%Z); (119, -30%Z); (121, -30%Z); (199, -40%Z); (210, -40%Z); (211, -40%Z); (212, -40%Z); (213, -40%Z);
   (214, -40%Z); (216, -40%Z); (217, -50%Z); (218, -50%Z); (219, -50%Z); (220, -50%Z); (221, -110%Z); (249, -30%Z); (250, -30%Z);
   (251, -30%Z); (252, -30%Z); (253, -30%Z); (255, -30%Z); (376, -110%Z)]);
   (196, [(67, -40%Z); (71, -50%Z); (79, -40%Z); (81, -40%Z); (84, -90%Z); (85, -50%Z); (86, -80%Z); (87, -60%Z); (89, -110%Z);
   (117, -30%Z); (118, -40%Z); (119, -30%Z); (121, -30%Z); (199, -40%Z); (210, -40%Z); (211, -40%Z); (212, -40%Z); (213, -40%Z);
   (214, -40%Z); (216, -40%Z); (217, -50%Z); (218, -50%Z); (219, -50%Z); (220, -50%Z); (221, -110%Z); (249, -30%Z); (250, -30%Z);
   (251, -30%Z); (252, -30%Z); (253, -30%Z); (255, -30%Z); (376, -110%Z)]);
   (197, [(67, -40%Z); (71, -50%Z); (79, -40%Z); (81, -40%Z); (84, -90%Z); (85, -50%Z); (86, -80%Z); (87, -60%Z); (89, -110%Z);
   (117, -30%Z); (118, -40%Z); (119, -30%Z); (121, -30%Z); (199, -40%Z); (210, -40%Z); (211, -40%Z); (212, -40%Z); (213, -40%Z);
   (214, -40%Z); (216, -40%Z); (217, -50%Z); (218, -50%Z); (219, -50%Z); (220, -50%Z); (221, -110%Z); (249, -30%Z); (250, -30%Z);
   (251, -30%Z); (252, -30%Z); (253, -30%Z); (255, -30%Z); (376, -110%Z)]);
   (210, [(44, -40%Z); (46, -40%Z); (65, -50%Z); (84, -40%Z); (86, -50%Z); (87, -50%Z); (88, -50%Z); (89, -70%Z); (192, -50%Z);
   (193, -50%Z); (194, -50%Z); (195, -50%Z); (196, -50%Z); (197, -50%Z); (221, -70%Z); (376, -70%Z)]);
   (211, [(44, -40%Z); (46, -40%Z); (65, -50%Z); (84, -40%Z); (86, -50%Z); (87, -50%Z); (88, -50%Z); (89, -70%Z); (192, -50%Z);
   (193, -50%Z); (194, -50%Z); (195, -50%Z); (196, -50%Z); (197, -50%Z); (221, -70%Z); (376, -70%Z)]);
   (212, [(44, -40%Z); (46, -40%Z); (65, -50%Z); (84, -40%Z); (86, -50%Z); (87, -50%Z); (88, -50%Z); (89, -70%Z); (192, -50%Z);
   (193, -50%Z); (194, -50%Z); (195, -50%Z); (196, -50%Z); (197, -50%Z); (221, -70%Z); (376, -70%Z)]);
   (213, [(44, -40%Z); (46, -40%Z); (65, -50%Z); (84, -40%Z); (86, -50%Z); (87, -50%Z); (88, -50%Z); (89, -70%Z); (192, -50%Z);
   (193, -50%Z); (194, -50%Z); (195, -50%Z); (196, -50%Z); (197, -50%Z); (221, -70%Z); (376, -70%Z)]);
   (214, [(44, -40%Z); (46, -40%Z); (65, -50%Z); (84, -40%Z); (86, -50%Z); (87, -50%Z); (88, -50%Z); (89, -70%Z); (192, -50%Z);
   (193, -50%Z); (194, -50%Z); (195, -50%Z); (196, -50%Z); (197, -50%Z); (221, -70%Z); (376, -70%Z)]);
   (216, [(44, -40%Z); (46, -40%Z); (65, -50%Z); (84, -40%Z); (86, -50%Z); (87, -50%Z); (88, -50%Z); (89, -70%Z); (192, -50%Z);
   (193, -50%Z); (194, -50%Z); (195, -50%Z); (196, -50%Z); (197, -50%Z); (221, -70%Z); (376, -70%Z)]);
   (217, [(44, -30%Z); (46, -30%Z); (65, -50%Z); (192, -50%Z); (193, -50%Z); (194, -50%Z); (195, -50%Z); (196, -50%Z); (197, -50%Z)]);
   (218, [(44, -30%Z); (46, -30%Z); (65, -50%Z); (192, -50%Z); (193, -50%Z); (194, -50%Z); (195, -50%Z); (196, -50%Z); (197, -50%Z)]);
   (219, [(44, -30%Z); (46, -30%Z); (65, -50%Z); (192, -50%Z); (193, -50%Z); (194, -50%Z); (195, -50%Z); (196, -50%Z); (197, -50%Z)]);
   (220, [(44, -30%Z); (46, -30%Z); (65, -50%Z); (192, -50%Z); (193, -50%Z); (194, -50%Z); (195, -50%Z); (196, -50%Z); (197, -50%Z)]);
   (221, [(44, -100%Z); (46, -100%Z); (58, -50%Z); (59, -50%Z); (65, -110%Z); (79, -70%Z); (97, -90%Z); (101, -80%Z); (111, -100%Z);
   (117, -100%Z); (192, -110%Z); (193, -110%Z); (194, -110%Z); (195, -110%Z); (196, -110%Z); (197, -110%Z); (210, -70%Z); (211, -70%Z);
   (212, -70%Z); (213, -70%Z); (214, -70%Z); (216, -70%Z); (224, -90%Z); (225, -90%Z); (226, -90%Z); (227, -90%Z); (228, -90%Z);
   (229, -90%Z); (232, -80%Z); (233, -80%Z); (234, -80%Z); (235, -80%Z); (242, -100%Z); (243, -100%Z); (244, -100%Z); (245, -100%Z);
   (246, -100%Z); (248, -100%Z); (249, -100%Z); (250, -100%Z); (251, -100%Z); (252, -100%Z)]);
   (224, [(103, -10%Z); (118, -15%Z); (119, -15%Z); (121, -20%Z); (253, -20%Z); (255, -20%Z)]);
   (225, [(103, -10%Z); (118, -15%Z); (119, -15%Z); (121, -20%Z); (253, -20%Z); (255, -20%Z)]);
   (226, [(103, -10%Z); (118, -15%Z); (119, -15%Z); (121, -20%Z); (253, -20%Z); (255, -20%Z)]);
   (227, [(103, -10%Z); (118, -15%Z); (119, -15%Z); (121, -20%Z); (253, -20%Z); (255, -20%Z)]);
   (228, [(103, -10%Z); (118, -15%Z); (119, -15%Z); (121, -20%Z); (253, -20%Z); (255, -20%Z)]);
   (229, [(103, -10%Z); (118, -15%Z); (119, -15%Z); (121, -20%Z); (253, -20%Z); (255, -20%Z)]);
   (231, [(104, -10%Z); (107, -20%Z); (108, -20%Z); (121, -10%Z); (253, -10%Z); (255, -10%Z); (322, -20%Z)]);
   (232, [(44, 10%Z); (46, 20%Z); (118, -15%Z); (119, -15%Z); (120, -15%Z); (121, -15%Z); (253, -15%Z); (255, -15%Z)]);
   (233, [(44, 10%Z); (46, 20%Z); (118, -15%Z); (119, -15%Z); (120, -15%Z); (121, -15%Z); (253, -15%Z); (255, -15%Z)]);
   (234, [(44, 10%Z); (46, 20%Z); (118, -15%Z); (119, -15%Z); (120, -15%Z); (121, -15%Z); (253, -15%Z); (255, -15%Z)]);
   (235, [(44, 10%Z); (46, 20%Z); (118, -15%Z); (119, -15%Z); (120, -15%Z); (121, -15%Z); (253, -15%Z); (255, -15%Z)]);
   (241, [(117, -10%Z); (118, -40%Z); (121, -20%Z); (249, -10%Z); (250, -10%Z); (251, -10%Z); (252, -10%Z); (253, -20%Z); (255, -20%Z)]);
   (242, [(118, -20%Z); (119, -15%Z); (120, -30%Z); (121, -20%Z); (253, -20%Z); (255, -20%Z)]);
   (243, [(118, -20%Z); (119, -15%Z); (120, -30%Z); (121, -20%Z); (253, -20%Z); (255, -20%Z)]);
   (244, [(118, -20%Z); (119, -15%Z); (120, -30%Z); (121, -20%Z); (253, -20%Z); (255, -20%Z)]);
   (245, [(118, -20%Z); (119, -15%Z); (120, -30%Z); (121, -20%Z); (253, -20%Z); (255, -20%Z)]);
   (246, [(118, -20%Z); (119, -15%Z); (120, -30%Z); (121, -20%Z); (253, -20%Z); (255, -20%Z)]);
   (248, [(118, -20%Z); (119, -15%Z); (120, -30%Z); (121, -20%Z); (253, -20%Z); (255, -20%Z)]);
   (253, [(44, -80%Z); (46, -80%Z); (97, -30%Z); (101, -10%Z); (111, -25%Z); (224, -30%Z); (225, -30%Z); (226, -30%Z); (227, -30%Z);
   (228, -30%Z); (229, -30%Z); (232, -10%Z); (233, -10%Z); (234, -10%Z); (235, -10%Z); (242, -25%Z); (243, -25%Z); (244, -25%Z);
   (245, -25%Z); (246, -25%Z); (248, -25%Z)]);
   (255, [(44, -80%Z); (46, -80%Z); (97, -30%Z); (101, -10%Z); (111, -25%Z); (224, -30%Z); (225, -30%Z); (226, -30%Z); (227, -30%Z);
   (228, -30%Z); (229, -30%Z); (232, -10%Z); (233, -10%Z); (234, -10%Z); (235, -10%Z); (242, -25%Z); (243, -25%Z); (244, -25%Z);
   (245, -25%Z); (246, -25%Z); (248, -25%Z)]);
   (321, [(84, -90%Z); (86, -110%Z); (87, -80%Z); (89, -120%Z); (121, -30%Z); (221, -120%Z); (253, -30%Z); (255, -30%Z); (376, -120%Z);
   (8217, -140%Z); (8221, -140%Z)]);
   (322, [(119, -15%Z); (121, -15%Z); (253, -15%Z); (255, -15%Z)]);
   (353, [(119, -15%Z)]);
   (376, [(44, -100%Z); (46, -100%Z); (58, -50%Z); (59, -50%Z); (65, -110%Z); (79, -70%Z); (97, -90%Z); (101, -80%Z); (111, -100%Z);
   (117, -100%Z); (192, -110%Z); (193, -110%Z); (194, -110%Z); (195, -110%Z); (196, -110%Z); (197, -110%Z); (210, -70%Z); (211, -70%Z);
   (212, -70%Z); (213, -70%Z); (214, -70%Z); (216, -70%Z); (224, -90%Z); (225, -90%Z); (226, -90%Z); (227, -90%Z); (228, -90%Z);
   (229, -90%Z); (232, -80%Z); (233, -80%Z); (234, -80%Z); (235, -80%Z); (242, -100%Z); (243, -100%Z); (244, -100%Z); (245, -100%Z);
   (246, -100%Z); (248, -100%Z); (249, -100%Z); (250, -100%Z); (251, -100%Z); (252, -100%Z)]);
   (382, [(101, 10%Z); (232, 10%Z); (233, 10%Z); (234, 10%Z); (235, 10%Z)]);
   (8216, [(8216, -46%Z)]);
   (8217, [(32, -80%Z); (100, -80%Z); (108, -20%Z); (114, -40%Z); (115, -60%Z); (118, -20%Z); (322, -20%Z); (353, -60%Z); (8217, -46%Z)]);
   (8221, [(32, -80%Z)])].
(** builtins.py 2987-3220: the widths are those of w_Helvetica *)
(** builtins.py 3221-4523: the pairs are those of k_Helvetica *)
(** builtins.py 4528-4761: the widths are those of w_Helvetica_Bold *)
(** builtins.py 4762-5947: the pairs are those of k_Helvetica_Bold *)
(** builtins.py 5954-6187 *)
Definition w_Times_Roman : list (N * Z) :=
  [(32, 250%Z); (33, 333%Z); (34, 408%Z); (35, 500%Z); (36, 500%Z); (37, 833%Z); (38, 778%Z); (39, 180%Z);
   (40, 333%Z); (41, 333%Z); (42, 500%Z); (43, 564%Z); (44, 250%Z); (45, 333%Z); (46, 250%Z); (47, 278%Z);
   (48, 500%Z); (49, 500%Z); (50, 500%Z); (51, 500%Z); (52, 500%Z); (53, 500%Z); (54, 500%Z); (55, 500%Z);
   (56, 500%Z); (57, 500%Z); (58, 278%Z); (59, 278%Z); (60, 564%Z); (61, 564%Z); (62, 564%Z); (63, 444%Z);
   (64, 921%Z); (65, 722%Z); (66, 667%Z); (67, 667%Z); (68, 722%Z); (69, 611%Z); (70, 556%Z); (71, 722%Z);
   (72, 722%Z); (73, 333%Z); (74, 389%Z); (75, 722%Z); (76, 611%Z); (77, 889%Z); (78, 722%Z); (79, 722%Z);
   (80, 556%Z); (81, 722%Z); (82, 667%Z); (83, 556%Z); (84, 611%Z); (85, 722%Z); (86, 722%Z); (87, 944%Z);
   (88, 722%Z); (89, 722%Z); (90, 611%Z); (91, 333%Z); (92, 278%Z); (93, 333%Z); (94, 469%Z); (95, 500%Z);
   (96, 333%Z); (97, 444%Z); (98, 500%Z); (99, 444%Z); (100, 500%Z); (101, 444%Z); (102, 333%Z); (103, 500%Z);
   (104, 500%Z); (105, 278%Z); (106, 278%Z); (107, 500%Z); (108, 278%Z); (109, 778%Z); (110, 500%Z); (111, 500%Z);
   (112, 500%Z); (113, 500%Z); (114, 333%Z); (115, 389%Z); (116, 278%Z); (117, 500%Z); (118, 500%Z); (119, 722%Z);
   (120, 500%Z); (121, 500%Z); (122, 444%Z); (123, 480%Z); (124, 200%Z); (125, 480%Z); (126, 541%Z); (161, 333%Z);
   (162, 500%Z); (163, 500%Z); (164, 500%Z); (165, 500%Z); (166, 200%Z); (167, 500%Z); (169, 760%Z); (170, 276%Z);
   (171, 500%Z); (172, 564%Z); (174, 760%Z); (176, 400%Z); (177, 564%Z); (178, 300%Z); (179, 300%Z); (182, 453%Z);
   (183, 250%Z); (185, 300%Z); (186, 310%Z); (187, 500%Z); (188, 750%Z); (189, 750%Z); (190, 750%Z); (191, 444%Z);
   (192, 722%Z); (193, 722%Z); (194, 722%Z); (195, 722%Z); (196, 722%Z); (197, 722%Z); (198, 889%Z); (199, 667%Z);
   (200, 611%Z); (201, 611%Z); (202, 611%Z); (203, 611%Z); (204, 333%Z); (205, 333%Z); (206, 333%Z); (207, 333%Z);
   (208, 722%Z); (209, 722%Z); (210, 722%Z); (211, 722%Z); (212, 722%Z); (213, 722%Z); (214, 722%Z); (215, 564%Z);
   (216, 722%Z); (217, 722%Z); (218, 722%Z); (219, 722%Z); (220, 722%Z); (221, 722%Z); (222, 556%Z); (223, 500%Z);
   (224, 444%Z); (225, 444%Z); (226, 444%Z); (227, 444%Z); (228, 444%Z); (229, 444%Z); (230, 667%Z); (231, 444%Z);
   (232, 444%Z); (233, 444%Z); (234, 444%Z); (235, 444%Z); (236, 278%Z); (237, 278%Z); (238, 278%Z); (239, 278%Z);
   (240, 500%Z); (241, 500%Z); (242, 500%Z); (243, 500%Z); (244, 500%Z); (245, 500%Z); (246, 500%Z); (247, 564%Z);
   (248, 500%Z); (249, 500%Z); (250, 500%Z); (251, 500%Z); (252, 500%Z); (253, 500%Z); (254, 500%Z); (255, 500%Z);
   (305, 278%Z); (321, 611%Z); (322, 278%Z); (338, 889%Z); (339, 722%Z); (352, 556%Z); (353, 389%Z); (376, 722%Z);
   (381, 611%Z); (382, 444%Z); (402, 500%Z); (710, 333%Z); (711, 333%Z); (769, 333%Z); (771, 333%Z); (772, 333%Z);
   (774, 333%Z); (775, 333%Z); (776, 333%Z); (778, 333%Z); (779, 333%Z); (807, 333%Z); (808, 333%Z); (956, 500%Z);
   (8211, 500%Z); (8212, 1000%Z); (8216, 333%Z); (8217, 333%Z); (8218, 333%Z); (8220, 444%Z); (8221, 444%Z); (8222, 444%Z);
   (8224, 500%Z); (8225, 500%Z); (8226, 350%Z); (8230, 1000%Z); (8240, 1000%Z); (8249, 333%Z); (8250, 333%Z); (8260, 167%Z);
   (8364, 500%Z); (8482, 980%Z); (8722, 564%Z); (64257, 556%Z); (64258, 556%Z)].
(** builtins.py 6188-7203, grouped by the first character *)
Definition k_Times_Roman : list (N * list (N * Z)) :=
  [(32, [(65, -55%Z); (84, -18%Z); (86, -50%Z); (87, -30%Z); (89, -90%Z); (192, -55%Z); (193, -55%Z); (194, -55%Z); (195, -55%Z);
   (196, -55%Z); (197, -55%Z); (221, -90%Z); (376, -90%Z)]);
   (44, [(8217, -70%Z); (8221, -70%Z)]);
   (46, [(8217, -70%Z); (8221, -70%Z)]);
   (65, [(67, -40%Z); (71, -40%Z); (79, -55%Z); (81, -55%Z); (84, -111%Z); (85, -55%Z); (86, -135%Z); (87, -90%Z); (89, -105%Z);
   (118, -74%Z); (119, -92%Z); (121, -92%Z); (199, -40%Z); (210, -55%Z); (211, -55%Z); (212, -55%Z); (213, -55%Z); (214, -55%Z);
   (216, -55%Z); (217, -55%Z); (218, -55%Z); (219, -55%Z); (220, -55%Z); (221, -105%Z); (253, -92%Z); (255, -92%Z); (376, -105%Z);
   (8217, -111%Z)]);
   (66, [(65, -35%Z); (85, -10%Z); (192, -35%Z); (193, -35%Z); (194, -35%Z); (195, -35%Z); (196, -35%Z); (197, -35%Z); (217, -10%Z);
   (218, -10%Z); (219, -10%Z); (220, -10%Z)]);
   (68, [(65, -40%Z); (86, -40%Z); (87, -30%Z); (89, -55%Z); (192, -40%Z); (193, -40%Z); (194, -40%Z); (195, -40%Z); (196, -40%Z);
   (197, -40%Z); (221, -55%Z); (376, -55%Z)]);
   (70, [(44, -80%Z); (46, -80%Z); (65, -74%Z); (97, -15%Z); (111, -15%Z); (192, -74%Z); (193, -74%Z); (194, -74%Z); (195, -74%Z);
   (196, -74%Z); (197, -74%Z); (224, -15%Z); (225, -15%Z); (226, -15%Z); (227, -15%Z); (228, -15%Z); (229, -15%Z); (242, -15%Z);
   (243, -15%Z); (244, -15%Z); (245, -15%Z); (246, -15%Z); (248, -15%Z)]);
   (74, [(65, -60%Z); (192, -60%Z); (193, -60%Z); (194, -60%Z); (195, -60%Z); (196, -60%Z); (197, -60%Z)]);
   (75, [(79, -30%Z); (101, -25%Z); (111, -35%Z); (117, -15%Z); (121, -25%Z); (210, -30%Z); (211, -30%Z); (212, -30%Z); (213, -30%Z);
   (214, -30%Z); (216, -30%Z); (232, -25%Z); (233, -25%Z); (234, -25%Z); (235, -25%Z); (242, -35%Z); (243, -35%Z); (244, -35%Z);
   (245, -35%Z); (246, -35%Z); (248, -35%Z); (249, -15%Z); (250, -15%Z); (251, -15%Z); (252, -15%Z); (253, -25%Z); (255, -25%Z)]);
   (76, [(84, -92%Z); (86, -100%Z); (87, -74%Z); (89, -100%Z); (121, -55%Z); (221, -100%Z); (253, -55%Z); (255, -55%Z); (376, -100%Z);
   (8217, -92%Z)]);
   (78, [(65, -35%Z); (192, -35%Z); (193, -35%Z); (194, -35%Z); (195, -35%Z); (196, -35%Z); (197, -35%Z)]);
   (79, [(65, -35%Z); (84, -40%Z); (86, -50%Z); (87, -35%Z); (88, -40%Z); (89, -50%Z); (192, -35%Z); (193, -35%Z); (194, -35%Z);
   (195, -35%Z); (196, -35%Z); (197, -35%Z); (221, -50%Z); (376, -50%Z)]);
   (80, [(44, -111%Z); (46, -111%Z); (65, -92%Z); (97, -15%Z); (192, -92%Z); (193, -92%Z); (194, -92%Z); (195, -92%Z); (196, -92%Z);
   (197, -92%Z); (224, -15%Z); (225, -15%Z); (226, -15%Z); (227, -15%Z); (228, -15%Z); (229, -15%Z)]);
   (81, [(85, -10%Z); (217, -10%Z); (218, -10%Z); (219, -10%Z); (220, -10%Z)]);
   (82, [(79, -40%Z); (84, -60%Z); (85, -40%Z); (86, -80%Z); (87, -55%Z); (89, -65%Z); (210, -40%Z); (211, -40%Z); (212, -40%Z);
   (213, -40%Z); (214, -40%Z); (216, -40%Z); (217, -40%Z); (218, -40%Z); (219, -40%Z); (220, -40%Z); (221, -65%Z); (376, -65%Z)]);
   (84, [(44, -74%Z); (45, -92%Z); (46, -74%Z); (58, -50%Z); (59, -55%Z); (65, -93%Z); (79, -18%Z); (97, -80%Z); (101, -70%Z);
   (105, -35%Z); (111, -80%Z); (114, -35%Z); (117, -45%Z); (119, -80%Z); (121, -80%Z); (192, -93%Z); (193, -93%Z); (194, -93%Z);
   (195, -93%Z); (196, -93%Z); (197, -93%Z); (210, -18%Z); (211, -18%Z); (212, -18%Z); (213, -18%Z); (214, -18%Z); (216, -18%Z);
   (224, -40%Z); (225, -80%Z); (226, -80%Z); (227, -40%Z); (228, -40%Z); (229, -80%Z); (232, -70%Z); (233, -70%Z); (234, -70%Z);
   (235, -30%Z); (237, -35%Z); (242, -80%Z); (243, -80%Z); (244, -80%Z); (245, -80%Z); (246, -80%Z); (248, -80%Z); (249, -45%Z);
   (250, -45%Z); (251, -45%Z); (252, -45%Z); (253, -80%Z); (255, -80%Z)]);
   (85, [(65, -40%Z); (192, -40%Z); (193, -40%Z); (194, -40%Z); (195, -40%Z); (196, -40%Z); (197, -40%Z)]);
   (86, [(44, -129%Z); (45, -100%Z); (46, -129%Z); (58, -74%Z); (59, -74%Z); (65, -135%Z); (71, -15%Z); (79, -40%Z); (97, -111%Z);
   (101, -111%Z); (105, -60%Z); (111, -129%Z); (117, -75%Z); (192, -135%Z); (193, -135%Z); (194, -135%Z); (195, -135%Z); (196, -135%Z);
   (197, -135%Z); (210, -40%Z); (211, -40%Z); (212, -40%Z); (213, -40%Z); (214, -40%Z); (216, -40%Z); (224, -71%Z); (225, -111%Z);
   (226, -71%Z); (227, -71%Z); (228, -71%Z); (229, -111%Z); (232, -71%Z); (233, -111%Z); (234, -71%Z); (235, -71%Z); (236, -20%Z);
   (237, -60%Z); (238, -20%Z); (239, -20%Z); (242, -89%Z); (243, -129%Z); (244, -129%Z); (245, -89%Z); (246, -89%Z); (248, -129%Z);
   (249, -75%Z); (250, -75%Z); (251, -75%Z); (252, -75%Z)]);
   (87, [(44, -92%Z); (45, -65%Z); (46, -92%Z); (58, -37%Z); (59, -37%Z); (65, -120%Z); (79, -10%Z); (97, -80%Z); (101, -80%Z);
   (105, -40%Z); (111, -80%Z); (117, -50%Z); (121, -73%Z); (192, -120%Z); (193, -120%Z); (194, -120%Z); (195, -120%Z); (196, -120%Z);
   (197, -120%Z); (210, -10%Z); (211, -10%Z); (212, -10%Z); (213, -10%Z); (214, -10%Z); (216, -10%Z); (224, -80%Z); (225, -80%Z);
   (226, -80%Z); (227, -80%Z); (228, -80%Z); (229, -80%Z); (232, -40%Z); (233, -80%Z); (234, -80%Z); (235, -40%Z); (237, -40%Z);
   (242, -80%Z); (243, -80%Z); (244, -80%Z); (245, -80%Z); (246, -80%Z); (248, -80%Z); (249, -50%Z); (250, -50%Z); (251, -50%Z);
   (252, -50%Z); (253, -73%Z); (255, -73%Z)]);
   (89, [(44, -129%Z); (45, -111%Z); (46, -129%Z); (58, -92%Z); (59, -92%Z); (65, -120%Z); (79, -30%Z); (97, -100%Z); (101, -100%Z);
   (105, -55%Z); (111, -110%Z); (117, -111%Z); (192, -120%Z); (193, -120%Z); (194, -120%Z); (195, -120%Z); (196, -120%Z); (197, -120%Z);
   (210, -30%Z); (211, -30%Z); (212, -30%Z); (213, -30%Z); (214, -30%Z); (216, -30%Z); (224, -60%Z); (225, -100%Z); (226, -100%Z);
   (227, -60%Z); (228, -60%Z); (229, -100%Z); (232, -60%Z); (233, -100%Z); (234, -100%Z); (235, -60%Z); (237, -55%Z); (242, -70%Z);
   (243, -110%Z); (244, -110%Z); (245, -70%Z); (246, -70%Z); (248, -110%Z); (249, -71%Z); (250, -111%Z); (251, -111%Z); (252, -71%Z)]);
   (97, [(118, -20%Z); (119, -15%Z)]);
   (98, [(46, -40%Z); (117, -20%Z); (118, -15%Z); (249, -20%Z); (250, -20%Z); (251, -20%Z); (252, -20%Z)]);
   (99, [(121, -15%Z); (253, -15%Z); (255, -15%Z)]);
   (101, [(103, -15%Z); (118, -25%Z); (119, -25%Z); (120, -15%Z); (121, -15%Z); (253, -15%Z); (255, -15%Z)]);
   (102, [(97, -10%Z); (102, -25%Z); (105, -20%Z); (224, -10%Z); (225, -10%Z); (226, -10%Z); (227, -10%Z); (228, -10%Z); (229, -10%Z);
   (237, -20%Z); (305, -50%Z); (8217, 55%Z)]);
   (103, [(97, -5%Z); (224, -5%Z); (225, -5%Z); (226, -5%Z); (227, -5%Z); (228, -5%Z); (229, -5%Z)]);
   (104, [(121, -5%Z); (253, -5%Z); (255, -5%Z)]);
   (105, [(118, -25%Z)]);
   (107, [(101, -10%Z); (111, -10%Z); (121, -15%Z); (232, -10%Z); (233, -10%Z); (234, -10%Z); (235, -10%Z); (242, -10%Z); (243, -10%Z);
   (244, -10%Z); (245, -10%Z); (246, -10%Z); (248, -10%Z); (253, -15%Z); (255, -15%Z)]);
   (108, [(119, -10%Z)]);
   (110, [(118, -40%Z); (121, -15%Z); (253, -15%Z); (255, -15%Z)]);
   (111, [(118, -15%Z); (119, -25%Z); (121, -10%Z); (253, -10%Z); (255, -10%Z)]);
   (112, [(121, -10%Z); (253, -10%Z); (255, -10%Z)]);
   (114, [(44, -40%Z); (45, -20%Z); (46, -55%Z); (103, -18%Z)]);
   (118, [(44, -65%Z); (46, -65%Z); (97, -25%Z); (101, -15%Z); (111, -20%Z); (224, -25%Z); (225, -25%Z); (226, -25%Z); (227, -25%Z);
   (228, -25%Z); (229, -25%Z); (232, -15%Z); (233, -15%Z); (234, -15%Z); (235, -15%Z); (242, -20%Z); (243, -20%Z); (244, -20%Z);
   (245, -20%Z); (246, -20%Z); (248, -20%Z)]);
   (119, [(44, -65%Z); (46, -65%Z); (97, -10%Z); (111, -10%Z); (224, -10%Z); (225, -10%Z); (226, -10%Z); (227, -10%Z); (228, -10%Z);
   (229, -10%Z); (242, -10%Z); (243, -10%Z); (244, -10%Z); (245, -10%Z); (246, -10%Z); (248, -10%Z)]);
   (120, [(101, -15%Z); (232, -15%Z); (233, -15%Z); (234, -15%Z); (235, -15%Z)]);
   (121, [(44, -65%Z); (46, -65%Z)]);
   (192, [(67, -40%Z); (71, -40%Z); (79, -55%Z); (81, -55%Z); (84, -111%Z); (85, -55%Z); (86, -135%Z); (87, -90%Z); (89, -105%Z);
   (118, -74%Z); (119, -92%Z); (121, -92%Z); (199, -40%Z); (210, -55%Z); (211, -55%Z); (212, -55%Z); (213, -55%Z); (214, -55%Z);
   (216, -55%Z); (217, -55%Z); (218, -55%Z); (219, -55%Z); (220, -55%Z); (221, -105%Z); (253, -92%Z); (255, -92%Z); (376, -105%Z);
   (8217, -111%Z)]);
   (193, [(67, -40%Z); (71, -40%Z); (79, -55%Z); (81, -55%Z); (84, -111%Z); (85, -55%Z); (86, -135%Z); (87, -90%Z); (89, -105%Z);
   (118, -74%Z); (119, -92%Z); (121, -92%Z); (199, -40%Z); (210, -55%Z); (211, -55%Z); (212, -55%Z); (213, -55%Z); (214, -55%Z);
   (216, -55%Z); (217, -55%Z); (218, -55%Z); (219, -55%Z); (220, -55%Z); (221, -105%Z); (253, -92%Z); (255, -92%Z); (376, -105%Z);
   (8217, -111%Z)]);
   (194, [(67, -40%Z); (71, -40%Z); (79, -55%Z); (81, -55%Z); (84, -111%Z); (85, -55%Z); (86, -135%Z); (87, -90%Z); (89, -105%Z);
   (118, -74%Z); (119, -92%Z); (121, -92%Z); (199, -40%Z); (210, -55%Z); (211, -55%Z); (212, -55%Z); (213, -55%Z); (214, -55%Z);
   (216, -55%Z); (217, -55%Z); (218, -55%Z); (219, -55%Z); (220, -55%Z); (221, -105%Z); (253, -92%Z); (255, -92%Z); (376, -105%Z);
   (8217, -111%Z)]);
   (195, [(67, -40%Z); (71, -40%Z); (79, -55%Z); (81, -55%Z); (84, -111%Z); (85, -55%Z); (86, -135%Z); (87, -90%Z); (89, -105%Z);
   (118, -74%Z); (119, -92%Z); (121, -92%Z); (199, -40%Z); (210, -55%Z); (211, -55%Z); (212, -55%Z); (213, -55%Z); (214, -55%Z);
   (216, -55%Z); (217, -55%Z); (218, -55%Z); (219, -55%Z); (220, -55%Z); (221, -105%Z); (253, -92%Z); (255, -92%Z); (376, -105%Z);
   (8217, -111%Z)]);
   (196, [(67, -40%Z); (71, -40%Z); (79, -55%Z); (81, -55%Z); (84, -111%Z); (85, -55%Z); (86, -135%Z); (87, -90%Z); (89, -105%Z);
   (118, -74%Z); (119, -92%Z); (121, -92%Z); (199, -40%Z); (210, -55%Z); (211, -55%Z); (212, -55%Z); (213, -55%Z); (214, -55%Z);
   (216, -55%Z); (217, -55%Z); (218, -55%Z); (219, -55%Z); (220, -55%Z); (221, -105%Z); (253, -92%Z); (255, -92%Z); (376, -105%Z);
   (8217, -111%Z)]);
   (197, [(67, -40%Z); (71, -40%Z); (79, -55%Z); (81, -55%Z); (84, -111%Z); (85, -55%Z); (86, -135%Z); (87, -90%Z); (89, -105%Z);
   (118, -74%Z); (119, -92%Z); (121, -92%Z); (199, -40%Z); (210, -55%Z); (211, -55%Z); (212, -55%Z); (213, -55%Z); (214, -55%Z);
   (216, -55%Z); (217, -55%Z); (218, -55%Z); (219, -55%Z); (220, -55%Z); (221, -105%Z); (253, -92%Z); (255, -92%Z); (376, -105%Z);
   (8217, -111%Z)]);
   (209, [(65, -35%Z); (192, -35%Z); (193, -35%Z); (194, -35%Z); (195, -35%Z); (196, -35%Z); (197, -35%Z)]);
   (210, [(65, -35%Z); (84, -40%Z); (86, -50%Z); (87, -35%Z); (88, -40%Z); (89, -50%Z); (192, -35%Z); (193, -35%Z); (194, -35%Z);
   (195, -35%Z); (196, -35%Z); (197, -35%Z); (221, -50%Z); (376, -50%Z)]);
   (211, [(65, -35%Z); (84, -40%Z); (86, -50%Z); (87, -35%Z); (88, -40%Z); (89, -50%Z); (192, -35%Z); (193, -35%Z); (194, -35%Z);
   (195, -35%Z); (196, -35%Z); (197, -35%Z); (221, -50%Z); (376, -50%Z)]);
   (212, [(65, -35%Z); (84, -40%Z); (86, -50%Z); (87, -35%Z); (88, -40%Z); (89, -50%Z); (192, -35%Z); (193, -35%Z); (194, -35%Z);
   (195, -35%Z); (196, -35%Z); (197, -35%Z); (221, -50%Z); (376, -50%Z)]);
   (213, [(65, -35%Z); (84, -40%Z); (86, -50%Z); (87, -35%Z); (88, -40%Z); (89, -50%Z); (192, -35%Z); (193, -35%Z); (194, -35%Z);
   (195, -35%Z); (196, -35%Z); (197, -35%Z); (221, -50%Z); (376, -50%Z)]);
   (214, [(65, -35%Z); (84, -40%Z); (86, -50%Z); (87, -35%Z); (88, -40%Z); (89, -50%Z); (192, -35%Z); (193, -35%Z); (194, -35%Z);
   (195, -35%Z); (196, -35%Z); (197, -35%Z); (221, -50%Z); (376, -50%Z)]);
   (216, [(65, -35%Z); (84, -40%Z); (86, -50%Z); (87, -35%Z); (88, -40%Z); (89, -50%Z); (192, -35%Z); (193, -35%Z); (194, -35%Z);
   (195, -35%Z); (196, -35%Z); (197, -35%Z); (221, -50%Z); (376, -50%Z)]);
   (217, [(65, -40%Z); (192, -40%Z); (193, -40%Z); (194, -40%Z); (195, -40%Z); (196, -40%Z); (197, -40%Z)]);
   (218, [(65, -40%Z); (192, -40%Z); (193, -40%Z); (194, -40%Z); (195, -40%Z); (196, -40%Z); (197, -40%Z)]);
   (219, [(65, -40%Z); (192, -40%Z); (193, -40%Z); (194, -40%Z); (195, -40%Z); (196, -40%Z); (197, -40%Z)]);
   (220, [(65, -40%Z); (192, -40%Z); (193, -40%Z); (194, -40%Z); (195, -40%Z); (196, -40%Z); (197, -40%Z)]);
   (221, [(44, -129%Z); (45, -111%Z); (46, -129%Z); (58, -92%Z); (59, -92%Z); (65, -120%Z); (79, -30%Z); (97, -100%Z); (101, -100%Z);
   (105, -55%Z); (111, -110%Z); (117, -111%Z); (192, -120%Z); (193, -120%Z); (194, -120%Z); (195, -120%Z); (196, -120%Z); (197, -120%Z);
   (210, -30%Z); (211, -30%Z); (212, -30%Z); (213, -30%Z); (214, -30%Z); (216, -30%Z); (224, -60%Z); (225, -100%Z); (226, -100%Z);
   (227, -60%Z); (228, -60%Z); (229, -100%Z); (232, -60%Z); (233, -100%Z); (234, -100%Z); (235, -60%Z); (237, -55%Z); (242, -70%Z);
   (243, -110%Z); (244, -110%Z); (245, -70%Z); (246, -70%Z); (248, -110%Z); (249, -71%Z); (250, -111%Z); (251, -111%Z); (252, -71%Z)]);
   (224, [(118, -20%Z); (119, -15%Z)]);
   (225, [(118, -20%Z); (119, -15%Z)]);
   (226, [(118, -20%Z); (119, -15%Z)]);
   (227, [(118, -20%Z); (119, -15%Z)]);
   (228, [(118, -20%Z); (119, -15%Z)]);
   (229, [(118, -20%Z); (119, -15%Z)]);
   (231, [(121, -15%Z); (253, -15%Z); (255, -15%Z)]);
   (232, [(103, -15%Z); (118, -25%Z); (119, -25%Z); (120, -15%Z); (121, -15%Z); (253, -15%Z); (255, -15%Z)]);
   (233, [(103, -15%Z); (118, -25%Z); (119, -25%Z); (120, -15%Z); (121, -15%Z); (253, -15%Z); (255, -15%Z)]);
   (234, [(103, -15%Z); (118, -25%Z); (119, -25%Z); (120, -15%Z); (121, -15%Z); (253, -15%Z); (255, -15%Z)]);
   (235, [(103, -15%Z); (118, -25%Z); (119, -25%Z); (120, -15%Z); (121, -15%Z); (253, -15%Z); (255, -15%Z)]);
   (236, [(118, -25%Z)]);
   (237, [(118, -25%Z)]);
   (238, [(118, -25%Z)]);
   (239, [(118, -25%Z)]);
   (241, [(118, -40%Z); (121, -15%Z); (253, -15%Z); (255, -15%Z)]);
   (242, [(118, -15%Z); (119, -25%Z); (121, -10%Z); (253, -10%Z); (255, -10%Z)]);
   (243, [(118, -15%Z); (119, -25%Z); (121, -10%Z); (253, -10%Z); (255, -10%Z)]);
   (244, [(118, -15%Z); (119, -25%Z); (121, -10%Z); (253, -10%Z); (255, -10%Z)]);
   (245, [(118, -15%Z); (119, -25%Z); (121, -10%Z); (253, -10%Z); (255, -10%Z)]);
   (246, [(118, -15%Z); (119, -25%Z); (121, -10%Z); (253, -10%Z); (255, -10%Z)]);
   (248, [(118, -15%Z); (119, -25%Z); (121, -10%Z); (253, -10%Z); (255, -10%Z)]);
   (253, [(44, -65%Z); (46, -65%Z)]);
   (255, [(44, -65%Z); (46, -65%Z)]);
   (321, [(84, -92%Z); (86, -100%Z); (87, -74%Z); (89, -100%Z); (121, -55%Z); (221, -100%Z); (253, -55%Z); (255, -55%Z); (376, -100%Z);
   (8217, -92%Z)]);
   (322, [(119, -10%Z)]);
   (376, [(44, -129%Z); (45, -111%Z); (46, -129%Z); (58, -92%Z); (59, -92%Z); (65, -120%Z); (79, -30%Z); (97, -100%Z); (101, -100%Z);
   (105, -55%Z); (111, -110%Z); (117, -111%Z); (192, -120%Z); (193, -120%Z); (194, -120%Z); (195, -120%Z); (196, -120%Z); (197, -120%Z);
   (210, -30%Z); (211, -30%Z); (212, -30%Z); (213, -30%Z); (214, -30%Z); (216, -30%Z); (224, -60%Z); (225, -100%Z); (226, -100%Z);
   (227, -100%Z); (228, -60%Z); (229, -100%Z); (232, -60%Z); (233, -100%Z); (234, -100%Z); (235, -60%Z); (237, -55%Z); (242, -70%Z);
   (243, -110%Z); (244, -110%Z); (245, -70%Z); (246, -70%Z); (248, -110%Z); (249, -71%Z); (250, -111%Z); (251, -111%Z); (252, -71%Z)]);
   (8216, [(65, -80%Z); (192, -80%Z); (193, -80%Z); (194, -80%Z); (195, -80%Z); (196, -80%Z); (197, -80%Z); (8216, -74%Z)]);
   (8217, [(32, -74%Z); (100, -50%Z); (108, -10%Z); (114, -50%Z); (115, -55%Z); (116, -18%Z); (118, -50%Z); (322, -10%Z); (353, -55%Z);
   (8217, -74%Z)]);
   (8220, [(65, -80%Z); (192, -80%Z); (193, -80%Z); (194, -80%Z); (195, -80%Z); (196, -80%Z); (197, -80%Z)])].
(** builtins.py 7208-7441 *)
Definition w_Times_Bold : list (N * Z) :=
  [(32, 250%Z); (33, 333%Z); (34, 555%Z); (35, 500%Z); (36, 500%Z); (37, 1000%Z); (38, 833%Z); (39, 278%Z);
   (40, 333%Z); (41, 333%Z); (42, 500%Z); (43, 570%Z); (44, 250%Z); (45, 333%Z); (46, 250%Z); (47, 278%Z);
   (48, 500%Z); (49, 500%Z); (50, 500%Z); (51, 500%Z); (52, 500%Z); (53, 500%Z); (54, 500%Z); (55, 500%Z);
   (56, 500%Z); (57, 500%Z); (58, 333%Z); (59, 333%Z); (60, 570%Z); (61, 570%Z); (62, 570%Z); (63, 500%Z);
   (64, 930%Z); (65, 722%Z); (66, 667%Z); (67, 722%Z); (68, 722%Z); (69, 667%Z); (70, 611%Z); (71, 778%Z);
   (72, 778%Z); (73, 389%Z); (74, 500%Z); (75, 778%Z); (76, 667%Z); (77, 944%Z); (78, 722%Z); (79, 778%Z);
   (80, 611%Z); (81, 778%Z); (82, 722%Z); (83, 556%Z); (84, 667%Z); (85, 722%Z); (86, 722%Z); (87, 1000%Z);
   (88, 722%Z); (89, 722%Z); (90, 667%Z); (91, 333%Z); (92, 278%Z); (93, 333%Z); (94, 581%Z); (95, 500%Z);
   (96, 333%Z); (97, 500%Z); (98, 556%Z); (99, 444%Z); (100, 556%Z); (101, 444%Z); (102, 333%Z); (103, 500%Z);
   (104, 556%Z); (105, 278%Z); (106, 333%Z); (107, 556%Z); (108, 278%Z); (109, 833%Z); (110, 556%Z); (111, 500%Z);
   (112, 556%Z); (113, 556%Z); (114, 444%Z); (115, 389%Z); (116, 333%Z); (117, 556%Z); (118, 500%Z); (119, 722%Z);
   (120, 500%Z); (121, 500%Z); (122, 444%Z); (123, 394%Z); (124, 220%Z); (125, 394%Z); (126, 520%Z); (161, 333%Z);
   (162, 500%Z); (163, 500%Z); (164, 500%Z); (165, 500%Z); (166, 220%Z); (167, 500%Z); (169, 747%Z); (170, 300%Z);
   (171, 500%Z); (172, 570%Z); (174, 747%Z); (176, 400%Z); (177, 570%Z); (178, 300%Z); (179, 300%Z); (182, 540%Z);
   (183, 250%Z); (185, 300%Z); (186, 330%Z); (187, 500%Z); (188, 750%Z); (189, 750%Z); (190, 750%Z); (191, 500%Z);
   (192, 722%Z); (193, 722%Z); (194, 722%Z); (195, 722%Z); (196, 722%Z); (197, 722%Z); (198, 1000%Z); (199, 722%Z);
   (200, 667%Z); (201, 667%Z); (202, 667%Z); (203, 667%Z); (204, 389%Z); (205, 389%Z); (206, 389%Z); (207, 389%Z);
   (208, 722%Z); (209, 722%Z); (210, 778%Z); (211, 778%Z); (212, 778%Z); (213, 778%Z); (214, 778%Z); (215, 570%Z);
   (216, 778%Z); (217, 722%Z); (218, 722%Z); (219, 722%Z); (220, 722%Z); (221, 722%Z); (222, 611%Z); (223, 556%Z);
   (224, 500%Z); (225, 500%Z); (226, 500%Z); (227, 500%Z); (228, 500%Z); (229, 500%Z); (230, 722%Z); (231, 444%Z);
   (232, 444%Z); (233, 444%Z); (234, 444%Z); (235, 444%Z); (236, 278%Z); (237, 278%Z); (238, 278%Z); (239, 278%Z);
   (240, 500%Z); (241, 556%Z); (242, 500%Z); (243, 500%Z); (244, 500%Z); (245, 500%Z); (246, 500%Z); (247, 570%Z);
   (248, 500%Z); (249, 556%Z); (250, 556%Z); (251, 556%Z); (252, 556%Z); (253, 500%Z); (254, 556%Z); (255, 500%Z);
   (305, 278%Z); (321, 667%Z); (322, 278%Z); (338, 1000%Z); (339, 722%Z); (352, 556%Z); (353, 389%Z); (376, 722%Z);
   (381, 667%Z); (382, 444%Z); (402, 500%Z); (710, 333%Z); (711, 333%Z); (769, 333%Z); (771, 333%Z); (772, 333%Z);
   (774, 333%Z); (775, 333%Z); (776, 333%Z); (778, 333%Z); (779, 333%Z); (807, 333%Z); (808, 333%Z); (956, 556%Z);
   (8211, 500%Z); (8212, 1000%Z); (8216, 333%Z); (8217, 333%Z); (8218, 333%Z); (8220, 500%Z); (8221, 500%Z); (8222, 500%Z);
   (8224, 500%Z); (8225, 500%Z); (8226, 350%Z); (8230, 1000%Z); (8240, 1000%Z); (8249, 333%Z); (8250, 333%Z); (8260, 167%Z);
   (8364, 500%Z); (8482, 1000%Z); (8722, 570%Z); (64257, 556%Z); (64258, 556%Z)].
(** builtins.py 7442-8517, grouped by the first character *)
Definition k_Times_Bold : list (N * list (N * Z)) :=
  [(32, [(65, -55%Z); (84, -30%Z); (86, -45%Z); (87, -30%Z); (89, -55%Z); (192, -55%Z); (193, -55%Z); (194, -55%Z); (195, -55%Z);
   (196, -55%Z); (197, -55%Z); (221, -55%Z); (376, -55%Z)]);
   (44, [(8217, -55%Z); (8221, -45%Z)]);
   (46, [(8217, -55%Z); (8221, -55%Z)]);
   (65, [(67, -55%Z); (71, -55%Z); (79, -45%Z); (81, -45%Z); (84, -95%Z); (85, -50%Z); (86, -145%Z); (87, -130%Z); (89, -100%Z);
   (112, -25%Z); (117, -50%Z); (118, -100%Z); (119, -90%Z); (121, -74%Z); (199, -55%Z); (210, -45%Z); (211, -45%Z); (212, -45%Z);
   (213, -45%Z); (214, -45%Z); (216, -45%Z); (217, -50%Z); (218, -50%Z); (219, -50%Z); (220, -50%Z); (221, -100%Z); (249, -50%Z);
   (250, -50%Z); (251, -50%Z); (252, -50%Z); (253, -74%Z); (255, -74%Z); (376, -100%Z); (8217, -74%Z)]);
   (66, [(65, -30%Z); (85, -10%Z); (192, -30%Z); (193, -30%Z); (194, -30%Z); (195, -30%Z); (196, -30%Z); (197, -30%Z); (217, -10%Z);
   (218, -10%Z); (219, -10%Z); (220, -10%Z)]);
   (68, [(46, -20%Z); (65, -35%Z); (86, -40%Z); (87, -40%Z); (89, -40%Z); (192, -35%Z); (193, -35%Z); (194, -35%Z); (195, -35%Z);
   (196, -35%Z); (197, -35%Z); (221, -40%Z); (376, -40%Z)]);
   (70, [(44, -92%Z); (46, -110%Z); (65, -90%Z); (97, -25%Z); (101, -25%Z); (111, -25%Z); (192, -90%Z); (193, -90%Z); (194, -90%Z);
   (195, -90%Z); (196, -90%Z); (197, -90%Z); (224, -25%Z); (225, -25%Z); (226, -25%Z); (227, -25%Z); (228, -25%Z); (229, -25%Z);
   (232, -25%Z); (233, -25%Z); (234, -25%Z); (235, -25%Z); (242, -25%Z); (243, -25%Z); (244, -25%Z); (245, -25%Z); (246, -25%Z);
   (248, -25%Z)]);
   (74, [(46, -20%Z); (65, -30%Z); (97, -15%Z); (101, -15%Z); (111, -15%Z); (117, -15%Z); (192, -30%Z); (193, -30%Z); (194, -30%Z);
   (195, -30%Z); (196, -30%Z); (197, -30%Z); (224, -15%Z); (225, -15%Z); (226, -15%Z); (227, -15%Z); (228, -15%Z); (229, -15%Z);
   (232, -15%Z); (233, -15%Z); (234, -15%Z); (235, -15%Z); (242, -15%Z); (243, -15%Z); (244, -15%Z); (245, -15%Z); (246, -15%Z);
   (248, -15%Z); (249, -15%Z); (250, -15%Z); (251, -15%Z); (252, -15%Z)]);
   (75, [(79, -30%Z); (101, -25%Z); (111, -25%Z); (117, -15%Z); (121, -45%Z); (210, -30%Z); (211, -30%Z); (212, -30%Z); (213, -30%Z);
   (214, -30%Z); (216, -30%Z); (232, -25%Z); (233, -25%Z); (234, -25%Z); (235, -25%Z); (242, -25%Z); (243, -25%Z); (244, -25%Z);
   (245, -25%Z); (246, -25%Z); (248, -25%Z); (249, -15%Z); (250, -15%Z); (251, -15%Z); (252, -15%Z); (253, -45%Z); (255, -45%Z)]);
   (76, [(84, -92%Z); (86, -92%Z); (87, -92%Z); (89, -92%Z); (121, -55%Z); (221, -92%Z); (253, -55%Z); (255, -55%Z); (376, -92%Z);
   (8217, -110%Z); (8221, -20%Z)]);
   (78, [(65, -20%Z); (192, -20%Z); (193, -20%Z); (194, -20%Z); (195, -20%Z); (196, -20%Z); (197, -20%Z)]);
   (79, [(65, -40%Z); (84, -40%Z); (86, -50%Z); (87, -50%Z); (88, -40%Z); (89, -50%Z); (192, -40%Z); (193, -40%Z); (194, -40%Z);
   (195, -40%Z); (196, -40%Z); (197, -40%Z); (221, -50%Z); (376, -50%Z)]);
   (80, [(44, -92%Z); (46, -110%Z); (65, -74%Z); (97, -10%Z); (101, -20%Z); (111, -20%Z); (192, -74%Z); (193, -74%Z); (194, -74%Z);
   (195, -74%Z); (196, -74%Z); (197, -74%Z); (224, -10%Z); (225, -10%Z); (226, -10%Z); (227, -10%Z); (228, -10%Z); (229, -10%Z);
   (232, -20%Z); (233, -20%Z); (234, -20%Z); (235, -20%Z); (242, -20%Z); (243, -20%Z); (244, -20%Z); (245, -20%Z); (246, -20%Z);
   (248, -20%Z)]);
   (81, [(46, -20%Z); (85, -10%Z); (217, -10%Z); (218, -10%Z); (219, -10%Z); (220, -10%Z)]);
   (82, [(79, -30%Z); (84, -40%Z); (85, -30%Z); (86, -55%Z); (87, -35%Z); (89, -35%Z); (210, -30%Z); (211, -30%Z); (212, -30%Z);
   (213, -30%Z); (214, -30%Z); (216, -30%Z); (217, -30%Z); (218, -30%Z); (219, -30%Z); (220, -30%Z); (221, -35%Z); (376, -35%Z)]);
   (84, [(44, -74%Z); (45, -92%Z); (46, -90%Z); (58, -74%Z); (59, -74%Z); (65, -90%Z); (79, -18%Z); (97, -92%Z); (101, -92%Z);
   (105, -18%Z); (111, -92%Z); (114, -74%Z); (117, -92%Z); (119, -74%Z); (121, -34%Z); (192, -90%Z); (193, -90%Z); (194, -90%Z);
   (195, -90%Z); (196, -90%Z); (197, -90%Z); (210, -18%Z); (211, -18%Z); (212, -18%Z); (213, -18%Z); (214, -18%Z); (216, -18%Z);
   (224, -52%Z); (225, -92%Z); (226, -52%Z); (227, -52%Z); (228, -52%Z); (229, -92%Z); (232, -52%Z); (233, -92%Z); (234, -92%Z);
   (235, -52%Z); (237, -18%Z); (242, -92%Z); (243, -92%Z); (244, -92%Z); (245, -92%Z); (246, -92%Z); (248, -92%Z); (249, -92%Z);
   (250, -92%Z); (251, -92%Z); (252, -92%Z); (253, -34%Z); (255, -34%Z)]);
   (85, [(44, -50%Z); (46, -50%Z); (65, -60%Z); (192, -60%Z); (193, -60%Z); (194, -60%Z); (195, -60%Z); (196, -60%Z); (197, -60%Z)]);
   (86, [(44, -129%Z); (45, -74%Z); (46, -145%Z); (58, -92%Z); (59, -92%Z); (65, -135%Z); (71, -30%Z); (79, -45%Z); (97, -92%Z);
   (101, -100%Z); (105, -37%Z); (111, -100%Z); (117, -92%Z); (192, -135%Z); (193, -135%Z); (194, -135%Z); (195, -135%Z); (196, -135%Z);
   (197, -135%Z); (210, -45%Z); (211, -45%Z); (212, -45%Z); (213, -45%Z); (214, -45%Z); (216, -45%Z); (224, -92%Z); (225, -92%Z);
   (226, -92%Z); (227, -92%Z); (228, -92%Z); (229, -92%Z); (232, -100%Z); (233, -100%Z); (234, -100%Z); (235, -100%Z); (236, -37%Z);
   (237, -37%Z); (238, -37%Z); (239, -37%Z); (242, -100%Z); (243, -100%Z); (244, -100%Z); (245, -100%Z); (246, -100%Z); (248, -100%Z);
   (249, -92%Z); (250, -92%Z); (251, -92%Z); (252, -92%Z)]);
   (87, [(44, -92%Z); (45, -37%Z); (46, -92%Z); (58, -55%Z); (59, -55%Z); (65, -120%Z); (79, -10%Z); (97, -65%Z); (101, -65%Z);
   (105, -18%Z); (111, -75%Z); (117, -50%Z); (121, -60%Z); (192, -120%Z); (193, -120%Z); (194, -120%Z); (195, -120%Z); (196, -120%Z);
   (197, -120%Z); (210, -10%Z); (211, -10%Z); (212, -10%Z); (213, -10%Z); (214, -10%Z); (216, -10%Z); (224, -65%Z); (225, -65%Z);
   (226, -65%Z); (227, -65%Z); (228, -65%Z); (229, -65%Z); (232, -65%Z); (233, -65%Z); (234, -65%Z); (235, -65%Z); (237, -18%Z);
   (242, -75%Z); (243, -75%Z); (244, -75%Z); (245, -75%Z); (246, -75%Z); (248, -75%Z); (249, -50%Z); (250, -50%Z); (251, -50%Z);
   (252, -50%Z); (253, -60%Z); (255, -60%Z)]);
   (89, [(44, -92%Z); (45, -92%Z); (46, -92%Z); (58, -92%Z); (59, -92%Z); (65, -110%Z); (79, -35%Z); (97, -85%Z); (101, -111%Z);
   (105, -37%Z); (111, -111%Z); (117, -92%Z); (192, -110%Z); (193, -110%Z); (194, -110%Z); (195, -110%Z); (196, -110%Z); (197, -110%Z);
   (210, -35%Z); (211, -35%Z); (212, -35%Z); (213, -35%Z); (214, -35%Z); (216, -35%Z); (224, -85%Z); (225, -85%Z); (226, -85%Z);
   (227, -85%Z); (228, -85%Z); (229, -85%Z); (232, -71%Z); (233, -111%Z); (234, -111%Z); (235, -71%Z); (237, -37%Z); (242, -111%Z);
   (243, -111%Z); (244, -111%Z); (245, -111%Z); (246, -111%Z); (248, -111%Z); (249, -92%Z); (250, -92%Z); (251, -92%Z); (252, -92%Z)]);
   (97, [(118, -25%Z)]);
   (98, [(46, -40%Z); (98, -10%Z); (117, -20%Z); (118, -15%Z); (249, -20%Z); (250, -20%Z); (251, -20%Z); (252, -20%Z)]);
   (100, [(119, -15%Z)]);
   (101, [(118, -15%Z)]);
   (102, [(44, -15%Z); (46, -15%Z); (105, -25%Z); (111, -25%Z); (242, -25%Z); (243, -25%Z); (244, -25%Z); (245, -25%Z); (246, -25%Z);
   (248, -25%Z); (305, -35%Z); (8217, 55%Z); (8221, 50%Z)]);
   (103, [(46, -15%Z)]);
   (104, [(121, -15%Z); (253, -15%Z); (255, -15%Z)]);
   (105, [(118, -10%Z)]);
   (107, [(101, -10%Z); (111, -15%Z); (121, -15%Z); (232, -10%Z); (233, -10%Z); (234, -10%Z); (235, -10%Z); (242, -15%Z); (243, -15%Z);
   (244, -15%Z); (245, -15%Z); (246, -15%Z); (248, -15%Z); (253, -15%Z); (255, -15%Z)]);
   (110, [(118, -40%Z)]);
   (111, [(118, -10%Z); (119, -10%Z)]);
   (114, [(44, -92%Z); (45, -37%Z); (46, -100%Z); (99, -18%Z); (101, -18%Z); (103, -10%Z); (110, -15%Z); (111, -18%Z); (112, -10%Z);
   (113, -18%Z); (118, -10%Z); (231, -18%Z); (232, -18%Z); (233, -18%Z); (234, -18%Z); (235, -18%Z); (241, -15%Z); (242, -18%Z);
   (243, -18%Z); (244, -18%Z); (245, -18%Z); (246, -18%Z); (248, -18%Z)]);
   (118, [(44, -55%Z); (46, -70%Z); (97, -10%Z); (101, -10%Z); (111, -10%Z); (224, -10%Z); (225, -10%Z); (226, -10%Z); (227, -10%Z);
   (228, -10%Z); (229, -10%Z); (232, -10%Z); (233, -10%Z); (234, -10%Z); (235, -10%Z); (242, -10%Z); (243, -10%Z); (244, -10%Z);
   (245, -10%Z); (246, -10%Z); (248, -10%Z)]);
   (119, [(44, -55%Z); (46, -70%Z); (111, -10%Z); (242, -10%Z); (243, -10%Z); (244, -10%Z); (245, -10%Z); (246, -10%Z); (248, -10%Z)]);
   (121, [(44, -55%Z); (46, -70%Z); (101, -10%Z); (111, -25%Z); (232, -10%Z); (233, -10%Z); (234, -10%Z); (235, -10%Z); (242, -25%Z);
   (243, -25%Z); (244, -25%Z); (245, -25%Z); (246, -25%Z); (248, -25%Z)]);
   (192, [(67, -55%Z); (71, -55%Z); (79, -45%Z); (81, -45%Z); (84, -95%Z); (85, -50%Z); (86, -145%Z); (87, -130%Z); (89, -100%Z);
   (112, -25%Z); (117, -50%Z); (118, -100%Z); (119, -90%Z); (121, -74%Z); (199, -55%Z); (210, -45%Z); (211, -45%Z); (212, -45%Z);
   (213, -45%Z); (214, -45%Z); (216, -45%Z); (217, -50%Z); (218, -50%Z); (219, -50%Z); (220, -50%Z); (221, -100%Z); (249, -50%Z);
   (250, -50%Z); (251, -50%Z); (252, -50%Z); (253, -74%Z); (255, -74%Z); (376, -100%Z); (8217, -74%Z)]);
   (193, [(67, -55%Z); (71, -55%Z); (79, -45%Z); (81, -45%Z); (84, -95%Z); (85, -50%Z); (86, -145%Z); (87, -130%Z); (89, -100%Z);
   (112, -25%Z); (117, -50%Z); (118, -100%Z); (119, -90%Z); (121, -74%Z); (199, -55%Z); (210, -45%Z); (211, -45%Z); (212, -45%Z);
   (213, -45%Z); (214, -45%Z); (216, -45%Z); (217, -50%Z); (218, -50%Z); (219, -50%Z); (220, -50%Z); (221, -100%Z); (249, -50%Z);
   (250, -50%Z); (251, -50%Z); (252, -50%Z); (253, -74%Z); (255, -74%Z); (376, -100%Z); (8217, -74%Z)]);
   (194, [(67, -55%Z); (71, -55%Z); (79, -45%Z); (81, -45%Z); (84, -95%Z); (85, -50%Z); (86, -145%Z); (87, -130%Z); (89, -100%Z);
   (112, -25%Z); (117, -50%Z); (118, -100%Z); (119, -90%Z); (121, -74%Z); (199, -55%Z); (210, -45%Z); (211, -45%Z); (212, -45%Z);
   (213, -45%Z); (214, -45%Z); (216, -45%Z); (217, -50%Z); (218, -50%Z); (219, -50%Z); (220, -50%Z); (221, -100%Z); (249, -50%Z);
   (250, -50%Z); (251, -50%Z); (252, -50%Z); (253, -74%Z); (255, -74%Z); (376, -100%Z); (8217, -74%Z)]);
   (195, [(67, -55%Z); (71, -55%Z); (79, -45%Z); (81, -45%Z); (84, -95%Z); (85, -50%Z); (86, -145%Z); (87, -130%Z); (89, -100%Z);
   (112, -25%Z); (117, -50%Z); (118, -100%Z); (119, -90%Z); (121, -74%Z); (199, -55%Z); (210, -45%Z); (211, -45%Z); (212, -45%Z);
   (213, -45%Z); (214, -45%Z); (216, -45%Z); (217, -50%Z); (218, -50%Z); (219, -50%Z); (220, -50%Z); (221, -100%Z); (249, -50%Z);
   (250, -50%Z); (251, -50%Z); (252, -50%Z); (253, -74%Z); (255, -74%Z); (376, -100%Z); (8217, -74%Z)]);
   (196, [(67, -55%Z); (71, -55%Z); (79, -45%Z); (81, -45%Z); (84, -95%Z); (85, -50%Z); (86, -145%Z); (87, -130%Z); (89, -100%Z);
   (112, -25%Z); (117, -50%Z); (118, -100%Z); (119, -90%Z); (121, -74%Z); (199, -55%Z); (210, -45%Z); (211, -45%Z); (212, -45%Z);
   (213, -45%Z); (214, -45%Z); (216, -45%Z); (217, -50%Z); (218, -50%Z); (219, -50%Z); (220, -50%Z); (221, -100%Z); (249, -50%Z);
   (250, -50%Z); (251, -50%Z); (252, -50%Z); (253, -74%Z); (255, -74%Z); (376, -100%Z); (8217, -74%Z)]);
   (197, [(67, -55%Z); (71, -55%Z); (79, -45%Z); (81, -45%Z); (84, -95%Z); (85, -50%Z); (86, -145%Z); (87, -130%Z); (89, -100%Z);
   (112, -25%Z); (117, -50%Z); (118, -100%Z); (119, -90%Z); (121, -74%Z); (199, -55%Z); (210, -45%Z); (211, -45%Z); (212, -45%Z);
   (213, -45%Z); (214, -45%Z); (216, -45%Z); (217, -50%Z); (218, -50%Z); (219, -50%Z); (220, -50%Z); (221, -100%Z); (249, -50%Z);
   (250, -50%Z); (251, -50%Z); (252, -50%Z); (253, -74%Z); (255, -74%Z); (376, -100%Z); (8217, -74%Z)]);
   (209, [(65, -20%Z); (192, -20%Z); (193, -20%Z); (194, -20%Z); (195, -20%Z); (196, -20%Z); (197, -20%Z)]);
   (210, [(65, -40%Z); (84, -40%Z); (86, -50%Z); (87, -50%Z); (88, -40%Z); (89, -50%Z); (192, -40%Z); (193, -40%Z); (194, -40%Z);
   (195, -40%Z); (196, -40%Z); (197, -40%Z); (221, -50%Z); (376, -50%Z)]);
   (211, [(65, -40%Z); (84, -40%Z); (86, -50%Z); (87, -50%Z); (88, -40%Z); (89, -50%Z); (192, -40%Z); (193, -40%Z); (194, -40%Z);
   (195, -40%Z); (196, -40%Z); (197, -40%Z); (221, -50%Z); (376, -50%Z)]);
   (212, [(65, -40%Z); (84, -40%Z); (86, -50%Z); (87, -50%Z); (88, -40%Z); (89, -50%Z); (192, -40%Z); (193, -40%Z); (194, -40%Z);
   (195, -40%Z); (196, -40%Z); (197, -40%Z); (221, -50%Z); (376, -50%Z)]);
   (213, [(65, -40%Z); (84, -40%Z); (86, -50%Z); (87, -50%Z); (88, -40%Z); (89, -50%Z); (192, -40%Z); (193, -40%Z); (194, -40%Z);
   (195, -40%Z); (196, -40%Z); (197, -40%Z); (221, -50%Z); (376, -50%Z)]);
   (214, [(65, -40%Z); (84, -40%Z); (86, -50%Z); (87, -50%Z); (88, -40%Z); (89, -50%Z); (192, -40%Z); (193, -40%Z); (194, -40%Z);
   (195, -40%Z); (196, -40%Z); (197, -40%Z); (221, -50%Z); (376, -50%Z)]);
   (216, [(65, -40%Z); (84, -40%Z); (86, -50%Z); (87, -50%Z); (88, -40%Z); (89, -50%Z); (192, -40%Z); (193, -40%Z); (194, -40%Z);
   (195, -40%Z); (196, -40%Z); (197, -40%Z); (221, -50%Z); (376, -50%Z)]);
   (217, [(44, -50%Z); (46, -50%Z); (65, -60%Z); (192, -60%Z); (193, -60%Z); (194, -60%Z); (195, -60%Z); (196, -60%Z); (197, -60%Z)]);
   (218, [(44, -50%Z); (46, -50%Z); (65, -60%Z); (192, -60%Z); (193, -60%Z); (194, -60%Z); (195, -60%Z); (196, -60%Z); (197, -60%Z)]);
   (219, [(44, -50%Z); (46, -50%Z); (65, -60%Z); (192, -60%Z); (193, -60%Z); (194, -60%Z); (195, -60%Z); (196, -60%Z); (197, -60%Z)]);
   (220, [(44, -50%Z); (46, -50%Z); (65, -60%Z); (192, -60%Z); (193, -60%Z); (194, -60%Z); (195, -60%Z); (196, -60%Z); (197, -60%Z)]);
   (221, [(44, -92%Z); (45, -92%Z); (46, -92%Z); (58, -92%Z); (59, -92%Z); (65, -110%Z); (79, -35%Z); (97, -85%Z); (101, -111%Z);
   (105, -37%Z); (111, -111%Z); (117, -92%Z); (192, -110%Z); (193, -110%Z); (194, -110%Z); (195, -110%Z); (196, -110%Z); (197, -110%Z);
   (210, -35%Z); (211, -35%Z); (212, -35%Z); (213, -35%Z); (214, -35%Z); (216, -35%Z); (224, -85%Z); (225, -85%Z); (226, -85%Z);
   (227, -85%Z); (228, -85%Z); (229, -85%Z); (232, -71%Z); (233, -111%Z); (234, -111%Z); (235, -71%Z); (237, -37%Z); (242, -111%Z);
   (243, -111%Z); (244, -111%Z); (245, -111%Z); (246, -111%Z); (248, -111%Z); (249, -92%Z); (250, -92%Z); (251, -92%Z); (252, -92%Z)]);
   (224, [(118, -25%Z)]);
   (225, [(118, -25%Z)]);
   (226, [(118, -25%Z)]);
   (227, [(118, -25%Z)]);
   (228, [(118, -25%Z)]);
   (229, [(118, -25%Z)]);
   (232, [(118, -15%Z)]);
   (233, [(118, -15%Z)]);
   (234, [(118, -15%Z)]);
   (235, [(118, -15%Z)]);
   (236, [(118, -10%Z)]);
   (237, [(118, -10%Z)]);
   (238, [(118, -10%Z)]);
   (239, [(118, -10%Z)]);
   (241, [(118, -40%Z)]);
   (242, [(118, -10%Z); (119, -10%Z)]);
   (243, [(118, -10%Z); (119, -10%Z)]);
   (244, [(118, -10%Z); (119, -10%Z)]);
   (245, [(118, -10%Z); (119, -10%Z)]);
   (246, [(118, -10%Z); (119, -10%Z)]);
   (248, [(118, -10%Z); (119, -10%Z)]);
   (253, [(44, -55%Z); (46, -70%Z); (101, -10%Z); (111, -25%Z); (232, -10%Z); (233, -10%Z); (234, -10%Z); (235, -10%Z); (242, -25%Z);
   (243, -25%Z); (244, -25%Z); (245, -25%Z); (246, -25%Z); (248, -25%Z)]);
   (255, [(44, -55%Z); (46, -70%Z); (101, -10%Z); (111, -25%Z); (232, -10%Z); (233, -10%Z); (234, -10%Z); (235, -10%Z); (242, -25%Z);
   (243, -25%Z); (244, -25%Z); (245, -25%Z); (246, -25%Z); (248, -25%Z)]);
   (321, [(84, -92%Z); (86, -92%Z); (87, -92%Z); (89, -92%Z); (121, -55%Z); (221, -92%Z); (253, -55%Z); (255, -55%Z); (376, -92%Z);
   (8217, -110%Z); (8221, -20%Z)]);
   (376, [(44, -92%Z); (45, -92%Z); (46, -92%Z); (58, -92%Z); (59, -92%Z); (65, -110%Z); (79, -35%Z); (97, -85%Z); (101, -111%Z);
   (105, -37%Z); (111, -111%Z); (117, -92%Z); (192, -110%Z); (193, -110%Z); (194, -110%Z); (195, -110%Z); (196, -110%Z); (197, -110%Z);
   (210, -35%Z); (211, -35%Z); (212, -35%Z); (213, -35%Z); (214, -35%Z); (216, -35%Z); (224, -85%Z); (225, -85%Z); (226, -85%Z);
   (227, -85%Z); (228, -85%Z); (229, -85%Z); (232, -71%Z); (233, -111%Z); (234, -111%Z); (235, -71%Z); (237, -37%Z); (242, -111%Z);
   (243, -111%Z); (244, -111%Z); (245, -111%Z); (246, -111%Z); (248, -111%Z); (249, -92%Z); (250, -92%Z); (251, -92%Z); (252, -92%Z)]);
   (8216, [(65, -10%Z); (192, -10%Z); (193, -10%Z); (194, -10%Z); (195, -10%Z); (196, -10%Z); (197, -10%Z); (8216, -63%Z)]);
   (8217, [(32, -74%Z); (100, -20%Z); (114, -20%Z); (115, -37%Z); (118, -20%Z); (353, -37%Z); (8217, -63%Z)]);
   (8220, [(65, -10%Z); (192, -10%Z); (193, -10%Z); (194, -10%Z); (195, -10%Z); (196, -10%Z); (197, -10%Z)])].
(** builtins.py 8522-8755 *)
Definition w_Times_Italic : list (N * Z) :=
  [(32, 250%Z); (33, 333%Z); (34, 420%Z); (35, 500%Z); (36, 500%Z); (37, 833%Z); (38, 778%Z); (39, 214%Z);
   (40, 333%Z); (41, 333%Z); (42, 500%Z); (43, 675%Z); (44, 250%Z); (45, 333%Z); (46, 250%Z); (47, 278%Z);
   (48, 500%Z); (49, 500%Z); (50, 500%Z); (51, 500%Z); (52, 500%Z); (53, 500%Z); (54, 500%Z); (55, 500%Z);
   (56, 500%Z); (57, 500%Z); (58, 333%Z); (59, 333%Z); (60, 675%Z); (61, 675%Z); (62, 675%Z); (63, 500%Z);
   (64, 920%Z); (65, 611%Z); (66, 611%Z); (67, 667%Z); (68, 722%Z); (69, 611%Z); (70, 611%Z); (71, 722%Z);
   (72, 722%Z); (73, 333%Z); (74, 444%Z); (75, 667%Z); (76, 556%Z); (77, 833%Z); (78, 667%Z); (79, 722%Z);
   (80, 611%Z); (81, 722%Z); (82, 611%Z); (83, 500%Z); (84, 556%Z); (85, 722%Z); (86, 611%Z); (87, 833%Z);
   (88, 611%Z); (89, 556%Z); (90, 556%Z); (91, 389%Z); (92, 278%Z); (93, 389%Z); (94, 422%Z); (95, 500%Z);
   (96, 333%Z); (97, 500%Z); (98, 500%Z); (99, 444%Z); (100, 500%Z); (101, 444%Z); (102, 278%Z); (103, 500%Z);
   (104, 500%Z); (105, 278%Z); (106, 278%Z); (107, 444%Z); (108, 278%Z); (109, 722%Z); (110, 500%Z); (111, 500%Z);
   (112, 500%Z); (113, 500%Z); (114, 389%Z); (115, 389%Z); (116, 278%Z); (117, 500%Z); (118, 444%Z); (119, 667%Z);
   (120, 444%Z); (121, 444%Z); (122, 389%Z); (123, 400%Z); (124, 275%Z); (125, 400%Z); (126, 541%Z); (161, 389%Z);
   (162, 500%Z); (163, 500%Z); (164, 500%Z); (165, 500%Z); (166, 275%Z); (167, 500%Z); (169, 760%Z); (170, 276%Z);
   (171, 500%Z); (172, 675%Z); (174, 760%Z); (176, 400%Z); (177, 675%Z); (178, 300%Z); (179, 300%Z); (182, 523%Z);
   (183, 250%Z); (185, 300%Z); (186, 310%Z); (187, 500%Z); (188, 750%Z); (189, 750%Z); (190, 750%Z); (191, 500%Z);
   (192, 611%Z); (193, 611%Z); (194, 611%Z); (195, 611%Z); (196, 611%Z); (197, 611%Z); (198, 889%Z); (199, 667%Z);
   (200, 611%Z); (201, 611%Z); (202, 611%Z); (203, 611%Z); (204, 333%Z); (205, 333%Z); (206, 333%Z); (207, 333%Z);
   (208, 722%Z); (209, 667%Z); (210, 722%Z); (211, 722%Z); (212, 722%Z); (213, 722%Z); (214, 722%Z); (215, 675%Z);
   (216, 722%Z); (217, 722%Z); (218, 722%Z); (219, 722%Z); (220, 722%Z); (221, 556%Z); (222, 611%Z); (223, 500%Z);
   (224, 500%Z); (225, 500%Z); (226, 500%Z); (227, 500%Z); (228, 500%Z); (229, 500%Z); (230, 667%Z); (231, 444%Z);
   (232, 444%Z); (233, 444%Z); (234, 444%Z); (235, 444%Z); (236, 278%Z); (237, 278%Z); (238, 278%Z); (239, 278%Z);
   (240, 500%Z); (241, 500%Z); (242, 500%Z); (243, 500%Z); (244, 500%Z); (245, 500%Z); (246, 500%Z); (247, 675%Z);
   (248, 500%Z); (249, 500%Z); (250, 500%Z); (251, 500%Z); (252, 500%Z); (253, 444%Z); (254, 500%Z); (255, 444%Z);
   (305, 278%Z); (321, 556%Z); (322, 278%Z); (338, 944%Z); (339, 667%Z); (352, 500%Z); (353, 389%Z); (376, 556%Z);
   (381, 556%Z); (382, 389%Z); (402, 500%Z); (710, 333%Z); (711, 333%Z); (769, 333%Z); (771, 333%Z); (772, 333%Z);
   (774, 333%Z); (775, 333%Z); (776, 333%Z); (778, 333%Z); (779, 333%Z); (807, 333%Z); (808, 333%Z); (956, 500%Z);
   (8211, 500%Z); (8212, 889%Z); (8216, 333%Z); (8217, 333%Z); (8218, 333%Z); (8220, 556%Z); (8221, 556%Z); (8222, 556%Z);
   (8224, 500%Z); (8225, 500%Z); (8226, 350%Z); (8230, 889%Z); (8240, 1000%Z); (8249, 333%Z); (8250, 333%Z); (8260, 167%Z);
   (8364, 500%Z); (8482, 980%Z); (8722, 675%Z); (64257, 500%Z); (64258, 500%Z)].
(** builtins.py 8756-9798, grouped by the first character *)
Definition k_Times_Italic : list (N * list (N * Z)) :=
  [(32, [(65, -18%Z); (84, -18%Z); (86, -35%Z); (87, -40%Z); (89, -75%Z); (192, -18%Z); (193, -18%Z); (194, -18%Z); (195, -18%Z);
   (196, -18%Z); (197, -18%Z); (221, -75%Z); (376, -75%Z)]);
   (44, [(8217, -140%Z); (8221, -140%Z)]);
   (46, [(8217, -140%Z); (8221, -140%Z)]);
   (65, [(67, -30%Z); (71, -35%Z); (79, -40%Z); (81, -40%Z); (84, -37%Z); (85, -50%Z); (86, -105%Z); (87, -95%Z); (89, -55%Z);
   (117, -20%Z); (118, -55%Z); (119, -55%Z); (121, -55%Z); (199, -30%Z); (210, -40%Z); (211, -40%Z); (212, -40%Z); (213, -40%Z);
   (214, -40%Z); (216, -40%Z); (217, -50%Z); (218, -50%Z); (219, -50%Z); (220, -50%Z); (221, -55%Z); (249, -20%Z); (250, -20%Z);
   (251, -20%Z); (252, -20%Z); (253, -55%Z); (255, -55%Z); (376, -55%Z); (8217, -37%Z)]);
   (66, [(65, -25%Z); (85, -10%Z); (192, -25%Z); (193, -25%Z); (194, -25%Z); (195, -25%Z); (196, -25%Z); (197, -25%Z); (217, -10%Z);
   (218, -10%Z); (219, -10%Z); (220, -10%Z)]);
   (68, [(65, -35%Z); (86, -40%Z); (87, -40%Z); (89, -40%Z); (192, -35%Z); (193, -35%Z); (194, -35%Z); (195, -35%Z); (196, -35%Z);
   (197, -35%Z); (221, -40%Z); (376, -40%Z)]);
   (70, [(44, -135%Z); (46, -135%Z); (65, -115%Z); (97, -75%Z); (101, -75%Z); (105, -45%Z); (111, -105%Z); (114, -55%Z); (192, -115%Z);
   (193, -115%Z); (194, -115%Z); (195, -115%Z); (196, -115%Z); (197, -115%Z); (224, -75%Z); (225, -75%Z); (226, -75%Z); (227, -75%Z);
   (228, -75%Z); (229, -75%Z); (232, -75%Z); (233, -75%Z); (234, -75%Z); (235, -75%Z); (236, -45%Z); (237, -45%Z); (238, -45%Z);
   (239, -45%Z); (242, -105%Z); (243, -105%Z); (244, -105%Z); (245, -105%Z); (246, -105%Z); (248, -105%Z)]);
   (74, [(44, -25%Z); (46, -25%Z); (65, -40%Z); (97, -35%Z); (101, -25%Z); (111, -25%Z); (117, -35%Z); (192, -40%Z); (193, -40%Z);
   (194, -40%Z); (195, -40%Z); (196, -40%Z); (197, -40%Z); (224, -35%Z); (225, -35%Z); (226, -35%Z); (227, -35%Z); (228, -35%Z);
   (229, -35%Z); (232, -25%Z); (233, -25%Z); (234, -25%Z); (235, -25%Z); (242, -25%Z); (243, -25%Z); (244, -25%Z); (245, -25%Z);
   (246, -25%Z); (248, -25%Z); (249, -35%Z); (250, -35%Z); (251, -35%Z); (252, -35%Z)]);
   (75, [(79, -50%Z); (101, -35%Z); (111, -40%Z); (117, -40%Z); (121, -40%Z); (210, -50%Z); (211, -50%Z); (212, -50%Z); (213, -50%Z);
   (214, -50%Z); (216, -50%Z); (232, -35%Z); (233, -35%Z); (234, -35%Z); (235, -35%Z); (242, -40%Z); (243, -40%Z); (244, -40%Z);
   (245, -40%Z); (246, -40%Z); (248, -40%Z); (249, -40%Z); (250, -40%Z); (251, -40%Z); (252, -40%Z); (253, -40%Z); (255, -40%Z)]);
   (76, [(84, -20%Z); (86, -55%Z); (87, -55%Z); (89, -20%Z); (121, -30%Z); (221, -20%Z); (253, -30%Z); (255, -30%Z); (376, -20%Z);
   (8217, -37%Z)]);
   (78, [(65, -27%Z); (192, -27%Z); (193, -27%Z); (194, -27%Z); (195, -27%Z); (196, -27%Z); (197, -27%Z)]);
   (79, [(65, -55%Z); (84, -40%Z); (86, -50%Z); (87, -50%Z); (88, -40%Z); (89, -50%Z); (192, -55%Z); (193, -55%Z); (194, -55%Z);
   (195, -55%Z); (196, -55%Z); (197, -55%Z); (221, -50%Z); (376, -50%Z)]);
   (80, [(44, -135%Z); (46, -135%Z); (65, -90%Z); (97, -80%Z); (101, -80%Z); (111, -80%Z); (192, -90%Z); (193, -90%Z); (194, -90%Z);
   (195, -90%Z); (196, -90%Z); (197, -90%Z); (224, -80%Z); (225, -80%Z); (226, -80%Z); (227, -80%Z); (228, -80%Z); (229, -80%Z);
   (232, -80%Z); (233, -80%Z); (234, -80%Z); (235, -80%Z); (242, -80%Z); (243, -80%Z); (244, -80%Z); (245, -80%Z); (246, -80%Z);
   (248, -80%Z)]);
   (81, [(85, -10%Z); (217, -10%Z); (218, -10%Z); (219, -10%Z); (220, -10%Z)]);
   (82, [(79, -40%Z); (85, -40%Z); (86, -18%Z); (87, -18%Z); (89, -18%Z); (210, -40%Z); (211, -40%Z); (212, -40%Z); (213, -40%Z);
   (214, -40%Z); (216, -40%Z); (217, -40%Z); (218, -40%Z); (219, -40%Z); (220, -40%Z); (221, -18%Z); (376, -18%Z)]);
   (84, [(44, -74%Z); (45, -74%Z); (46, -74%Z); (58, -55%Z); (59, -65%Z); (65, -50%Z); (79, -18%Z); (97, -92%Z); (101, -92%Z);
   (105, -55%Z); (111, -92%Z); (114, -55%Z); (117, -55%Z); (119, -74%Z); (121, -74%Z); (192, -50%Z); (193, -50%Z); (194, -50%Z);
   (195, -50%Z); (196, -50%Z); (197, -50%Z); (210, -18%Z); (211, -18%Z); (212, -18%Z); (213, -18%Z); (214, -18%Z); (216, -18%Z);
   (224, -92%Z); (225, -92%Z); (226, -92%Z); (227, -92%Z); (228, -92%Z); (229, -92%Z); (232, -52%Z); (233, -92%Z); (234, -52%Z);
   (235, -52%Z); (237, -55%Z); (242, -92%Z); (243, -92%Z); (244, -92%Z); (245, -92%Z); (246, -92%Z); (248, -92%Z); (249, -55%Z);
   (250, -55%Z); (251, -55%Z); (252, -55%Z); (253, -74%Z); (255, -34%Z)]);
   (85, [(44, -25%Z); (46, -25%Z); (65, -40%Z); (192, -40%Z); (193, -40%Z); (194, -40%Z); (195, -40%Z); (196, -40%Z); (197, -40%Z)]);
   (86, [(44, -129%Z); (45, -55%Z); (46, -129%Z); (58, -65%Z); (59, -74%Z); (65, -60%Z); (79, -30%Z); (97, -111%Z); (101, -111%Z);
   (105, -74%Z); (111, -111%Z); (117, -74%Z); (192, -60%Z); (193, -60%Z); (194, -60%Z); (195, -60%Z); (196, -60%Z); (197, -60%Z);
   (210, -30%Z); (211, -30%Z); (212, -30%Z); (213, -30%Z); (214, -30%Z); (216, -30%Z); (224, -111%Z); (225, -111%Z); (226, -111%Z);
   (227, -111%Z); (228, -111%Z); (229, -111%Z); (232, -71%Z); (233, -111%Z); (234, -111%Z); (235, -71%Z); (236, -34%Z); (237, -74%Z);
   (238, -34%Z); (239, -34%Z); (242, -111%Z); (243, -111%Z); (244, -111%Z); (245, -111%Z); (246, -111%Z); (248, -111%Z); (249, -74%Z);
   (250, -74%Z); (251, -74%Z); (252, -74%Z)]);
   (87, [(44, -92%Z); (45, -37%Z); (46, -92%Z); (58, -65%Z); (59, -65%Z); (65, -60%Z); (79, -25%Z); (97, -92%Z); (101, -92%Z);
   (105, -55%Z); (111, -92%Z); (117, -55%Z); (121, -70%Z); (192, -60%Z); (193, -60%Z); (194, -60%Z); (195, -60%Z); (196, -60%Z);
   (197, -60%Z); (210, -25%Z); (211, -25%Z); (212, -25%Z); (213, -25%Z); (214, -25%Z); (216, -25%Z); (224, -92%Z); (225, -92%Z);
   (226, -92%Z); (227, -92%Z); (228, -92%Z); (229, -92%Z); (232, -52%Z); (233, -92%Z); (234, -92%Z); (235, -52%Z); (237, -55%Z);
   (242, -92%Z); (243, -92%Z); (244, -92%Z); (245, -92%Z); (246, -92%Z); (248, -92%Z); (249, -55%Z); (250, -55%Z); (251, -55%Z);
   (252, -55%Z); (253, -70%Z); (255, -70%Z)]);
   (89, [(44, -92%Z); (45, -74%Z); (46, -92%Z); (58, -65%Z); (59, -65%Z); (65, -50%Z); (79, -15%Z); (97, -92%Z); (101, -92%Z);
   (105, -74%Z); (111, -92%Z); (117, -92%Z); (192, -50%Z); (193, -50%Z); (194, -50%Z); (195, -50%Z); (196, -50%Z); (197, -50%Z);
   (210, -15%Z); (211, -15%Z); (212, -15%Z); (213, -15%Z); (214, -15%Z); (216, -15%Z); (224, -92%Z); (225, -92%Z); (226, -92%Z);
   (227, -92%Z); (228, -92%Z); (229, -92%Z); (232, -52%Z); (233, -92%Z); (234, -92%Z); (235, -52%Z); (236, -34%Z); (237, -74%Z);
   (238, -34%Z); (239, -34%Z); (242, -92%Z); (243, -92%Z); (244, -92%Z); (245, -92%Z); (246, -92%Z); (248, -92%Z); (249, -92%Z);
   (250, -92%Z); (251, -92%Z); (252, -92%Z)]);
   (97, [(103, -10%Z)]);
   (98, [(46, -40%Z); (117, -20%Z); (249, -20%Z); (250, -20%Z); (251, -20%Z); (252, -20%Z)]);
   (99, [(104, -15%Z); (107, -20%Z)]);
   (101, [(44, -10%Z); (46, -15%Z); (103, -40%Z); (118, -15%Z); (119, -15%Z); (120, -20%Z); (121, -30%Z); (253, -30%Z); (255, -30%Z)]);
   (102, [(44, -10%Z); (46, -15%Z); (102, -18%Z); (105, -20%Z); (305, -60%Z); (8217, 92%Z)]);
   (103, [(44, -10%Z); (46, -15%Z); (101, -10%Z); (103, -10%Z); (232, -10%Z); (233, -10%Z); (234, -10%Z); (235, -10%Z)]);
   (107, [(101, -10%Z); (111, -10%Z); (121, -10%Z); (232, -10%Z); (233, -10%Z); (234, -10%Z); (235, -10%Z); (242, -10%Z); (243, -10%Z);
   (244, -10%Z); (245, -10%Z); (246, -10%Z); (248, -10%Z); (253, -10%Z); (255, -10%Z)]);
   (110, [(118, -40%Z)]);
   (111, [(103, -10%Z); (118, -10%Z)]);
   (114, [(44, -111%Z); (45, -20%Z); (46, -111%Z); (97, -15%Z); (99, -37%Z); (100, -37%Z); (101, -37%Z); (103, -37%Z); (111, -45%Z);
   (113, -37%Z); (115, -10%Z); (224, -15%Z); (225, -15%Z); (226, -15%Z); (227, -15%Z); (228, -15%Z); (229, -15%Z); (231, -37%Z);
   (232, -37%Z); (233, -37%Z); (234, -37%Z); (235, -37%Z); (242, -45%Z); (243, -45%Z); (244, -45%Z); (245, -45%Z); (246, -45%Z);
   (248, -45%Z); (353, -10%Z)]);
   (118, [(44, -74%Z); (46, -74%Z)]);
   (119, [(44, -74%Z); (46, -74%Z)]);
   (121, [(44, -55%Z); (46, -55%Z)]);
   (192, [(67, -30%Z); (71, -35%Z); (79, -40%Z); (81, -40%Z); (84, -37%Z); (85, -50%Z); (86, -105%Z); (87, -95%Z); (89, -55%Z);
   (117, -20%Z); (118, -55%Z); (119, -55%Z); (121, -55%Z); (199, -30%Z); (210, -40%Z); (211, -40%Z); (212, -40%Z); (213, -40%Z);
   (214, -40%Z); (216, -40%Z); (217, -50%Z); (218, -50%Z); (219, -50%Z); (220, -50%Z); (221, -55%Z); (249, -20%Z); (250, -20%Z);
   (251, -20%Z); (252, -20%Z); (253, -55%Z); (255, -55%Z); (376, -55%Z); (8217, -37%Z)]);
   (193, [(67, -30%Z); (71, -35%Z); (79, -40%Z); (81, -40%Z); (84, -37%Z); (85, -50%Z); (86, -105%Z); (87, -95%Z); (89, -55%Z);
   (117, -20%Z); (118, -55%Z); (119, -55%Z); (121, -55%Z); (199, -30%Z); (210, -40%Z); (211, -40%Z); (212, -40%Z); (213, -40%Z);
   (214, -40%Z); (216, -40%Z); (217, -50%Z); (218, -50%Z); (219, -50%Z); (220, -50%Z); (221, -55%Z); (249, -20%Z); (250, -20%Z);
   (251, -20%Z); (252, -20%Z); (253, -55%Z); (255, -55%Z); (376, -55%Z); (8217, -37%Z)]);
   (194, [(67, -30%Z); (71, -35%Z); (79, -40%Z); (81, -40%Z); (84, -37%Z); (85, -50%Z); (86, -105%Z); (87, -95%Z); (89, -55%Z);
   (117, -20%Z); (118, -55%Z); (119, -55%Z); (121, -55%Z); (199, -30%Z); (210, -40%Z); (211, -40%Z); (212, -40%Z); (213, -40%Z);
   (214, -40%Z); (216, -40%Z); (217, -50%Z); (218, -50%Z); (219, -50%Z); (220, -50%Z); (221, -55%Z); (249, -20%Z); (250, -20%Z);
   (251, -20%Z); (252, -20%Z); (253, -55%Z); (255, -55%Z); (376, -55%Z); (8217, -37%Z)]);
   (195, [(67, -30%Z); (71, -35%Z); (79, -40%Z); (81, -40%Z); (84, -37%Z); (85, -50%Z); (86, -105%Z); (87, -95%Z); (89, -55%Z);
   (117, -20%Z); (118, -55%Z); (119, -55%Z); (121, -55%Z); (199, -30%Z); (210, -40%Z); (211, -40%Z); (212, -40%Z); (213, -40%Z);
   (214, -40%Z); (216, -40%Z); (217, -50%Z); (218, -50%Z); (219, -50%Z); (220, -50%Z); (221, -55%Z); (249, -20%Z); (250, -20%Z);
   (251, -20%Z); (252, -20%Z); (253, -55%Z); (255, -55%Z); (376, -55%Z); (8217, -37%Z)]);
   (196, [(67, -30%Z); (71, -35%Z); (79, -40%Z); (81, -40%Z); (84, -37%Z); (85, -50%Z); (86, -105%Z); (87, -95%Z); (89, -55%Z);
   (117, -20%Z); (118, -55%Z); (119, -55%Z); (121, -55%Z); (199, -30%Z); (210, -40%Z); (211, -40%Z); (212, -40%Z); (213, -40%Z);
   (214, -40%Z); (216, -40%Z); (217, -50%Z); (218, -50%Z); (219, -50%Z); (220, -50%Z); (221, -55%Z); (249, -20%Z); (250, -20%Z);
   (251, -20%Z); (252, -20%Z); (253, -55%Z); (255, -55%Z); (376, -55%Z); (8217, -37%Z)]);
   (197, [(67, -30%Z); (71, -35%Z); (79, -40%Z); (81, -40%Z); (84, -37%Z); (85, -50%Z); (86, -105%Z); (87, -95%Z); (89, -55%Z);
   (117, -20%Z); (118, -55%Z); (119, -55%Z); (121, -55%Z); (199, -30%Z); (210, -40%Z); (211, -40%Z); (212, -40%Z); (213, -40%Z);
   (214, -40%Z); (216, -40%Z); (217, -50%Z); (218, -50%Z); (219, -50%Z); (220, -50%Z); (221, -55%Z); (249, -20%Z); (250, -20%Z);
   (251, -20%Z); (252, -20%Z); (253, -55%Z); (255, -55%Z); (376, -55%Z); (8217, -37%Z)]);
   (209, [(65, -27%Z); (192, -27%Z); (193, -27%Z); (194, -27%Z); (195, -27%Z); (196, -27%Z); (197, -27%Z)]);
   (210, [(65, -55%Z); (84, -40%Z); (86, -50%Z); (87, -50%Z); (88, -40%Z); (89, -50%Z); (192, -55%Z); (193, -55%Z); (194, -55%Z);
   (195, -55%Z); (196, -55%Z); (197, -55%Z); (221, -50%Z); (376, -50%Z)]);
   (211, [(65, -55%Z); (84, -40%Z); (86, -50%Z); (87, -50%Z); (88, -40%Z); (89, -50%Z); (192, -55%Z); (193, -55%Z); (194, -55%Z);
   (195, -55%Z); (196, -55%Z); (197, -55%Z); (221, -50%Z); (376, -50%Z)]);
   (212, [(65, -55%Z); (84, -40%Z); (86, -50%Z); (87, -50%Z); (88, -40%Z); (89, -50%Z); (192, -55%Z); (193, -55%Z); (194, -55%Z);
   (195, -55%Z); (196, -55%Z); (197, -55%Z); (221, -50%Z); (376, -50%Z)]);
   (213, [(65, -55%Z); (84, -40%Z); (86, -50%Z); (87, -50%Z); (88, -40%Z); (89, -50%Z); (192, -55%Z); (193, -55%Z); (194, -55%Z);
   (195, -55%Z); (196, -55%Z); (197, -55%Z); (221, -50%Z); (376, -50%Z)]);
   (214, [(65, -55%Z); (84, -40%Z); (86, -50%Z); (87, -50%Z); (88, -40%Z); (89, -50%Z); (192, -55%Z); (193, -55%Z); (194, -55%Z);
   (195, -55%Z); (196, -55%Z); (197, -55%Z); (221, -50%Z); (376, -50%Z)]);
   (216, [(65, -55%Z); (84, -40%Z); (86, -50%Z); (87, -50%Z); (88, -40%Z); (89, -50%Z); (192, -55%Z); (193, -55%Z); (194, -55%Z);
   (195, -55%Z); (196, -55%Z); (197, -55%Z); (221, -50%Z); (376, -50%Z)]);
   (217, [(44, -25%Z); (46, -25%Z); (65, -40%Z); (192, -40%Z); (193, -40%Z); (194, -40%Z); (195, -40%Z); (196, -40%Z); (197, -40%Z)]);
   (218, [(44, -25%Z); (46, -25%Z); (65, -40%Z); (192, -40%Z); (193, -40%Z); (194, -40%Z); (195, -40%Z); (196, -40%Z); (197, -40%Z)]);
   (219, [(44, -25%Z); (46, -25%Z); (65, -40%Z); (192, -40%Z); (193, -40%Z); (194, -40%Z); (195, -40%Z); (196, -40%Z); (197, -40%Z)]);
   (220, [(44, -25%Z); (46, -25%Z); (65, -40%Z); (192, -40%Z); (193, -40%Z); (194, -40%Z); (195, -40%Z); (196, -40%Z); (197, -40%Z)]);
   (221, [(44, -92%Z); (45, -74%Z); (46, -92%Z); (58, -65%Z); (59, -65%Z); (65, -50%Z); (79, -15%Z); (97, -92%Z); (101, -92%Z);
   (105, -74%Z); (111, -92%Z); (117, -92%Z); (192, -50%Z); (193, -50%Z); (194, -50%Z); (195, -50%Z); (196, -50%Z); (197, -50%Z);
   (210, -15%Z); (211, -15%Z); (212, -15%Z); (213, -15%Z); (214, -15%Z); (216, -15%Z); (224, -92%Z); (225, -92%Z); (226, -92%Z);
   (227, -92%Z); (228, -92%Z); (229, -92%Z); (232, -52%Z); (233, -92%Z); (234, -92%Z); (235, -52%Z); (236, -34%Z); (237, -74%Z);
   (238, -34%Z); (239, -34%Z); (242, -92%Z); (243, -92%Z); (244, -92%Z); (245, -92%Z); (246, -92%Z); (248, -92%Z); (249, -92%Z);
   (250, -92%Z); (251, -92%Z); (252, -92%Z)]);
   (224, [(103, -10%Z)]);
   (225, [(103, -10%Z)]);
   (226, [(103, -10%Z)]);
   (227, [(103, -10%Z)]);
   (228, [(103, -10%Z)]);
   (229, [(103, -10%Z)]);
   (231, [(104, -15%Z); (107, -20%Z)]);
   (232, [(44, -10%Z); (46, -15%Z); (103, -40%Z); (118, -15%Z); (119, -15%Z); (120, -20%Z); (121, -30%Z); (253, -30%Z); (255, -30%Z)]);
   (233, [(44, -10%Z); (46, -15%Z); (103, -40%Z); (118, -15%Z); (119, -15%Z); (120, -20%Z); (121, -30%Z); (253, -30%Z); (255, -30%Z)]);
   (234, [(44, -10%Z); (46, -15%Z); (103, -40%Z); (118, -15%Z); (119, -15%Z); (120, -20%Z); (121, -30%Z); (253, -30%Z); (255, -30%Z)]);
   (235, [(44, -10%Z); (46, -15%Z); (103, -40%Z); (118, -15%Z); (119, -15%Z); (120, -20%Z); (121, -30%Z); (253, -30%Z); (255, -30%Z)]);
   (241, [(118, -40%Z)]);
   (242, [(103, -10%Z); (118, -10%Z)]);
   (243, [(103, -10%Z); (118, -10%Z)]);
   (244, [(103, -10%Z); (118, -10%Z)]);
   (245, [(103, -10%Z); (118, -10%Z)]);
   (246, [(103, -10%Z); (118, -10%Z)]);
   (248, [(103, -10%Z); (118, -10%Z)]);
   (253, [(44, -55%Z); (46, -55%Z)]);
   (255, [(44, -55%Z); (46, -55%Z)]);
   (321, [(84, -20%Z); (86, -55%Z); (87, -55%Z); (89, -20%Z); (121, -30%Z); (221, -20%Z); (253, -30%Z); (255, -30%Z); (376, -20%Z);
   (8217, -37%Z)]);
   (376, [(44, -92%Z); (45, -74%Z); (46, -92%Z); (58, -65%Z); (59, -65%Z); (65, -50%Z); (79, -15%Z); (97, -92%Z); (101, -92%Z);
   (105, -74%Z); (111, -92%Z); (117, -92%Z); (192, -50%Z); (193, -50%Z); (194, -50%Z); (195, -50%Z); (196, -50%Z); (197, -50%Z);
   (210, -15%Z); (211, -15%Z); (212, -15%Z); (213, -15%Z); (214, -15%Z); (216, -15%Z); (224, -92%Z); (225, -92%Z); (226, -92%Z);
   (227, -92%Z); (228, -92%Z); (229, -92%Z); (232, -52%Z); (233, -92%Z); (234, -92%Z); (235, -52%Z); (236, -34%Z); (237, -74%Z);
   (238, -34%Z); (239, -34%Z); (242, -92%Z); (243, -92%Z); (244, -92%Z); (245, -92%Z); (246, -92%Z); (248, -92%Z); (249, -92%Z);
   (250, -92%Z); (251, -92%Z); (252, -92%Z)]);
   (8216, [(8216, -111%Z)]);
   (8217, [(32, -111%Z); (100, -25%Z); (114, -25%Z); (115, -40%Z); (116, -30%Z); (118, -10%Z); (353, -40%Z); (8217, -111%Z)])].
(** builtins.py 9803-10036 *)
Definition w_Times_BoldItalic : list (N * Z) :=
  [(32, 250%Z); (33, 389%Z); (34, 555%Z); (35, 500%Z); (36, 500%Z); (37, 833%Z); (38, 778%Z); (39, 278%Z);
   (40, 333%Z); (41, 333%Z); (42, 500%Z); (43, 570%Z); (44, 250%Z); (45, 333%Z); (46, 250%Z); (47, 278%Z);
   (48, 500%Z); (49, 500%Z); (50, 500%Z); (51, 500%Z); (52, 500%Z); (53, 500%Z); (54, 500%Z); (55, 500%Z);
   (56, 500%Z); (57, 500%Z); (58, 333%Z); (59, 333%Z); (60, 570%Z); (61, 570%Z); (62, 570%Z); (63, 500%Z);
   (64, 832%Z); (65, 667%Z); (66, 667%Z); (67, 667%Z); (68, 722%Z); (69, 667%Z); (70, 667%Z); (71, 722%Z);
   (72, 778%Z); (73, 389%Z); (74, 500%Z); (75, 667%Z); (76, 611%Z); (77, 889%Z); (78, 722%Z); (79, 722%Z);
   (80, 611%Z); (81, 722%Z); (82, 667%Z); (83, 556%Z); (84, 611%Z); (85, 722%Z); (86, 667%Z); (87, 889%Z);
   (88, 667%Z); (89, 611%Z); (90, 611%Z); (91, 333%Z); (92, 278%Z); (93, 333%Z); (94, 570%Z); (95, 500%Z);
   (96, 333%Z); (97, 500%Z); (98, 500%Z); (99, 444%Z); (100, 500%Z); (101, 444%Z); (102, 333%Z); (103, 500%Z);
   (104, 556%Z); (105, 278%Z); (106, 278%Z); (107, 500%Z); (108, 278%Z); (109, 778%Z); (110, 556%Z); (111, 500%Z);
   (112, 500%Z); (113, 500%Z); (114, 389%Z); (115, 389%Z); (116, 278%Z); (117, 556%Z); (118, 444%Z); (119, 667%Z);
   (120, 500%Z); (121, 444%Z); (122, 389%Z); (123, 348%Z); (124, 220%Z); (125, 348%Z); (126, 570%Z); (161, 389%Z);
   (162, 500%Z); (163, 500%Z); (164, 500%Z); (165, 500%Z); (166, 220%Z); (167, 500%Z); (169, 747%Z); (170, 266%Z);
   (171, 500%Z); (172, 606%Z); (174, 747%Z); (176, 400%Z); (177, 570%Z); (178, 300%Z); (179, 300%Z); (182, 500%Z);
   (183, 250%Z); (185, 300%Z); (186, 300%Z); (187, 500%Z); (188, 750%Z); (189, 750%Z); (190, 750%Z); (191, 500%Z);
   (192, 667%Z); (193, 667%Z); (194, 667%Z); (195, 667%Z); (196, 667%Z); (197, 667%Z); (198, 944%Z); (199, 667%Z);
   (200, 667%Z); (201, 667%Z); (202, 667%Z); (203, 667%Z); (204, 389%Z); (205, 389%Z); (206, 389%Z); (207, 389%Z);
   (208, 722%Z); (209, 722%Z); (210, 722%Z); (211, 722%Z); (212, 722%Z); (213, 722%Z); (214, 722%Z); (215, 570%Z);
   (216, 722%Z); (217, 722%Z); (218, 722%Z); (219, 722%Z); (220, 722%Z); (221, 611%Z); (222, 611%Z); (223, 500%Z);
   (224, 500%Z); (225, 500%Z); (226, 500%Z); (227, 500%Z); (228, 500%Z); (229, 500%Z); (230, 722%Z); (231, 444%Z);
   (232, 444%Z); (233, 444%Z); (234, 444%Z); (235, 444%Z); (236, 278%Z); (237, 278%Z); (238, 278%Z); (239, 278%Z);
   (240, 500%Z); (241, 556%Z); (242, 500%Z); (243, 500%Z); (244, 500%Z); (245, 500%Z); (246, 500%Z); (247, 570%Z);
   (248, 500%Z); (249, 556%Z); (250, 556%Z); (251, 556%Z); (252, 556%Z); (253, 444%Z); (254, 500%Z); (255, 444%Z);
   (305, 278%Z); (321, 611%Z); (322, 278%Z); (338, 944%Z); (339, 722%Z); (352, 556%Z); (353, 389%Z); (376, 611%Z);
   (381, 611%Z); (382, 389%Z); (402, 500%Z); (710, 333%Z); (711, 333%Z); (769, 333%Z); (771, 333%Z); (772, 333%Z);
   (774, 333%Z); (775, 333%Z); (776, 333%Z); (778, 333%Z); (779, 333%Z); (807, 333%Z); (808, 333%Z); (956, 576%Z);
   (8211, 500%Z); (8212, 1000%Z); (8216, 333%Z); (8217, 333%Z); (8218, 333%Z); (8220, 500%Z); (8221, 500%Z); (8222, 500%Z);
   (8224, 500%Z); (8225, 500%Z); (8226, 350%Z); (8230, 1000%Z); (8240, 1000%Z); (8249, 333%Z); (8250, 333%Z); (8260, 167%Z);
   (8364, 500%Z); (8482, 1000%Z); (8722, 606%Z); (64257, 556%Z); (64258, 556%Z)].
(** builtins.py 10037-11045, grouped by the first character *)
Definition k_Times_BoldItalic : list (N * list (N * Z)) :=
  [(32, [(65, -37%Z); (86, -70%Z); (87, -70%Z); (89, -70%Z); (192, -37%Z); (193, -37%Z); (194, -37%Z); (195, -37%Z); (196, -37%Z);
   (197, -37%Z); (221, -70%Z); (376, -70%Z)]);
   (44, [(8217, -95%Z); (8221, -95%Z)]);
   (46, [(8217, -95%Z); (8221, -95%Z)]);
   (65, [(67, -65%Z); (71, -60%Z); (79, -50%Z); (81, -55%Z); (84, -55%Z); (85, -50%Z); (86, -95%Z); (87, -100%Z); (89, -70%Z);
   (117, -30%Z); (118, -74%Z); (119, -74%Z); (121, -74%Z); (199, -65%Z); (210, -50%Z); (211, -50%Z); (212, -50%Z); (213, -50%Z);
   (214, -50%Z); (216, -50%Z); (217, -50%Z); (218, -50%Z); (219, -50%Z); (220, -50%Z); (221, -70%Z); (249, -30%Z); (250, -30%Z);
   (251, -30%Z); (252, -30%Z); (253, -74%Z); (255, -74%Z); (376, -70%Z); (8217, -74%Z)]);
   (66, [(65, -25%Z); (85, -10%Z); (192, -25%Z); (193, -25%Z); (194, -25%Z); (195, -25%Z); (196, -25%Z); (197, -25%Z); (217, -10%Z);
   (218, -10%Z); (219, -10%Z); (220, -10%Z)]);
   (68, [(65, -25%Z); (86, -50%Z); (87, -40%Z); (89, -50%Z); (192, -25%Z); (193, -25%Z); (194, -25%Z); (195, -25%Z); (196, -25%Z);
   (197, -25%Z); (221, -50%Z); (376, -50%Z)]);
   (70, [(44, -129%Z); (46, -129%Z); (65, -100%Z); (97, -95%Z); (101, -100%Z); (105, -40%Z); (111, -70%Z); (114, -50%Z); (192, -100%Z);
   (193, -100%Z); (194, -100%Z); (195, -100%Z); (196, -100%Z); (197, -100%Z); (224, -95%Z); (225, -95%Z); (226, -95%Z); (227, -95%Z);
   (228, -95%Z); (229, -95%Z); (232, -100%Z); (233, -100%Z); (234, -100%Z); (235, -100%Z); (236, -40%Z); (237, -40%Z); (238, -40%Z);
   (239, -40%Z); (242, -70%Z); (243, -70%Z); (244, -70%Z); (245, -70%Z); (246, -70%Z); (248, -70%Z)]);
   (74, [(44, -10%Z); (46, -10%Z); (65, -25%Z); (97, -40%Z); (101, -40%Z); (111, -40%Z); (117, -40%Z); (192, -25%Z); (193, -25%Z);
   (194, -25%Z); (195, -25%Z); (196, -25%Z); (197, -25%Z); (224, -40%Z); (225, -40%Z); (226, -40%Z); (227, -40%Z); (228, -40%Z);
   (229, -40%Z); (232, -40%Z); (233, -40%Z); (234, -40%Z); (235, -40%Z); (242, -40%Z); (243, -40%Z); (244, -40%Z); (245, -40%Z);
   (246, -40%Z); (248, -40%Z); (249, -40%Z); (250, -40%Z); (251, -40%Z); (252, -40%Z)]);
   (75, [(79, -30%Z); (101, -25%Z); (111, -25%Z); (117, -20%Z); (121, -20%Z); (210, -30%Z); (211, -30%Z); (212, -30%Z); (213, -30%Z);
   (214, -30%Z); (216, -30%Z); (232, -25%Z); (233, -25%Z); (234, -25%Z); (235, -25%Z); (242, -25%Z); (243, -25%Z); (244, -25%Z);
   (245, -25%Z); (246, -25%Z); (248, -25%Z); (249, -20%Z); (250, -20%Z); (251, -20%Z); (252, -20%Z); (253, -20%Z); (255, -20%Z)]);
   (76, [(84, -18%Z); (86, -37%Z); (87, -37%Z); (89, -37%Z); (121, -37%Z); (221, -37%Z); (253, -37%Z); (255, -37%Z); (376, -37%Z);
   (8217, -55%Z)]);
   (78, [(65, -30%Z); (192, -30%Z); (193, -30%Z); (194, -30%Z); (195, -30%Z); (196, -30%Z); (197, -30%Z)]);
   (79, [(65, -40%Z); (84, -40%Z); (86, -50%Z); (87, -50%Z); (88, -40%Z); (89, -50%Z); (192, -40%Z); (193, -40%Z); (194, -40%Z);
   (195, -40%Z); (196, -40%Z); (197, -40%Z); (221, -50%Z); (376, -50%Z)]);
   (80, [(44, -129%Z); (46, -129%Z); (65, -85%Z); (97, -40%Z); (101, -50%Z); (111, -55%Z); (192, -85%Z); (193, -85%Z); (194, -85%Z);
   (195, -85%Z); (196, -85%Z); (197, -85%Z); (224, -40%Z); (225, -40%Z); (226, -40%Z); (227, -40%Z); (228, -40%Z); (229, -40%Z);
   (232, -50%Z); (233, -50%Z); (234, -50%Z); (235, -50%Z); (242, -55%Z); (243, -55%Z); (244, -55%Z); (245, -55%Z); (246, -55%Z);
   (248, -55%Z)]);
   (81, [(85, -10%Z); (217, -10%Z); (218, -10%Z); (219, -10%Z); (220, -10%Z)]);
   (82, [(79, -40%Z); (84, -30%Z); (85, -40%Z); (86, -18%Z); (87, -18%Z); (89, -18%Z); (210, -40%Z); (211, -40%Z); (212, -40%Z);
   (213, -40%Z); (214, -40%Z); (216, -40%Z); (217, -40%Z); (218, -40%Z); (219, -40%Z); (220, -40%Z); (221, -18%Z); (376, -18%Z)]);
   (84, [(44, -92%Z); (45, -92%Z); (46, -92%Z); (58, -74%Z); (59, -74%Z); (65, -55%Z); (79, -18%Z); (97, -92%Z); (101, -92%Z);
   (105, -37%Z); (111, -95%Z); (114, -37%Z); (117, -37%Z); (119, -37%Z); (121, -37%Z); (192, -55%Z); (193, -55%Z); (194, -55%Z);
   (195, -55%Z); (196, -55%Z); (197, -55%Z); (210, -18%Z); (211, -18%Z); (212, -18%Z); (213, -18%Z); (214, -18%Z); (216, -18%Z);
   (224, -92%Z); (225, -92%Z); (226, -92%Z); (227, -92%Z); (228, -92%Z); (229, -92%Z); (232, -52%Z); (233, -92%Z); (234, -92%Z);
   (235, -52%Z); (237, -37%Z); (242, -95%Z); (243, -95%Z); (244, -95%Z); (245, -95%Z); (246, -95%Z); (248, -95%Z); (249, -37%Z);
   (250, -37%Z); (251, -37%Z); (252, -37%Z); (253, -37%Z); (255, -37%Z)]);
   (85, [(65, -45%Z); (192, -45%Z); (193, -45%Z); (194, -45%Z); (195, -45%Z); (196, -45%Z); (197, -45%Z)]);
   (86, [(44, -129%Z); (45, -70%Z); (46, -129%Z); (58, -74%Z); (59, -74%Z); (65, -85%Z); (71, -10%Z); (79, -30%Z); (97, -111%Z);
   (101, -111%Z); (105, -55%Z); (111, -111%Z); (117, -55%Z); (192, -85%Z); (193, -85%Z); (194, -85%Z); (195, -85%Z); (196, -85%Z);
   (197, -85%Z); (210, -30%Z); (211, -30%Z); (212, -30%Z); (213, -30%Z); (214, -30%Z); (216, -30%Z); (224, -111%Z); (225, -111%Z);
   (226, -111%Z); (227, -111%Z); (228, -111%Z); (229, -111%Z); (232, -71%Z); (233, -111%Z); (234, -111%Z); (235, -71%Z); (237, -55%Z);
   (242, -111%Z); (243, -111%Z); (244, -111%Z); (245, -111%Z); (246, -111%Z); (248, -111%Z); (249, -55%Z); (250, -55%Z); (251, -55%Z);
   (252, -55%Z)]);
   (87, [(44, -74%Z); (45, -50%Z); (46, -74%Z); (58, -55%Z); (59, -55%Z); (65, -74%Z); (79, -15%Z); (97, -85%Z); (101, -90%Z);
   (105, -37%Z); (111, -80%Z); (117, -55%Z); (121, -55%Z); (192, -74%Z); (193, -74%Z); (194, -74%Z); (195, -74%Z); (196, -74%Z);
   (197, -74%Z); (210, -15%Z); (211, -15%Z); (212, -15%Z); (213, -15%Z); (214, -15%Z); (216, -15%Z); (224, -85%Z); (225, -85%Z);
   (226, -85%Z); (227, -85%Z); (228, -85%Z); (229, -85%Z); (232, -50%Z); (233, -90%Z); (234, -90%Z); (235, -50%Z); (237, -37%Z);
   (242, -80%Z); (243, -80%Z); (244, -80%Z); (245, -80%Z); (246, -80%Z); (248, -80%Z); (249, -55%Z); (250, -55%Z); (251, -55%Z);
   (252, -55%Z); (253, -55%Z); (255, -55%Z)]);
   (89, [(44, -92%Z); (45, -92%Z); (46, -74%Z); (58, -92%Z); (59, -92%Z); (65, -74%Z); (79, -25%Z); (97, -92%Z); (101, -111%Z);
   (105, -55%Z); (111, -111%Z); (117, -92%Z); (192, -74%Z); (193, -74%Z); (194, -74%Z); (195, -74%Z); (196, -74%Z); (197, -74%Z);
   (210, -25%Z); (211, -25%Z); (212, -25%Z); (213, -25%Z); (214, -25%Z); (216, -25%Z); (224, -92%Z); (225, -92%Z); (226, -92%Z);
   (227, -92%Z); (228, -92%Z); (229, -92%Z); (232, -71%Z); (233, -111%Z); (234, -71%Z); (235, -71%Z); (237, -55%Z); (242, -111%Z);
   (243, -111%Z); (244, -111%Z); (245, -111%Z); (246, -111%Z); (248, -111%Z); (249, -92%Z); (250, -92%Z); (251, -92%Z); (252, -92%Z)]);
   (98, [(46, -40%Z); (98, -10%Z); (117, -20%Z); (249, -20%Z); (250, -20%Z); (251, -20%Z); (252, -20%Z)]);
   (99, [(104, -10%Z); (107, -10%Z)]);
   (101, [(98, -10%Z)]);
   (102, [(44, -10%Z); (46, -10%Z); (101, -10%Z); (102, -18%Z); (111, -10%Z); (233, -10%Z); (242, -10%Z); (243, -10%Z); (244, -10%Z);
   (245, -10%Z); (248, -10%Z); (305, -30%Z); (8217, 55%Z)]);
   (107, [(101, -30%Z); (111, -10%Z); (232, -30%Z); (233, -30%Z); (234, -30%Z); (235, -30%Z); (242, -10%Z); (243, -10%Z); (244, -10%Z);
   (245, -10%Z); (246, -10%Z); (248, -10%Z)]);
   (110, [(118, -40%Z)]);
   (111, [(118, -15%Z); (119, -25%Z); (120, -10%Z); (121, -10%Z); (253, -10%Z); (255, -10%Z)]);
   (114, [(44, -65%Z); (46, -65%Z)]);
   (118, [(44, -37%Z); (46, -37%Z); (101, -15%Z); (111, -15%Z); (232, -15%Z); (233, -15%Z); (234, -15%Z); (235, -15%Z); (242, -15%Z);
   (243, -15%Z); (244, -15%Z); (245, -15%Z); (246, -15%Z); (248, -15%Z)]);
   (119, [(44, -37%Z); (46, -37%Z); (97, -10%Z); (101, -10%Z); (111, -15%Z); (224, -10%Z); (225, -10%Z); (226, -10%Z); (227, -10%Z);
   (228, -10%Z); (229, -10%Z); (232, -10%Z); (233, -10%Z); (234, -10%Z); (235, -10%Z); (242, -15%Z); (243, -15%Z); (244, -15%Z);
   (245, -15%Z); (246, -15%Z); (248, -15%Z)]);
   (120, [(101, -10%Z); (232, -10%Z); (233, -10%Z); (234, -10%Z); (235, -10%Z)]);
   (121, [(44, -37%Z); (46, -37%Z)]);
   (192, [(67, -65%Z); (71, -60%Z); (79, -50%Z); (81, -55%Z); (84, -55%Z); (85, -50%Z); (86, -95%Z); (87, -100%Z); (89, -70%Z);
   (117, -30%Z); (118, -74%Z); (119, -74%Z); (121, -74%Z); (199, -65%Z); (210, -50%Z); (211, -50%Z); (212, -50%Z); (213, -50%Z);
   (214, -50%Z); (216, -50%Z); (217, -50%Z); (218, -50%Z); (219, -50%Z); (220, -50%Z); (221, -70%Z); (249, -30%Z); (250, -30%Z);
   (251, -30%Z); (252, -30%Z); (253, -74%Z); (255, -74%Z); (376, -70%Z); (8217, -74%Z)]);
   (193, [(67, -65%Z); (71, -60%Z); (79, -50%Z); (81, -55%Z); (84, -55%Z); (85, -50%Z); (86, -95%Z); (87, -100%Z); (89, -70%Z);
   (117, -30%Z); (118, -74%Z); (119, -74%Z); (121, -74%Z); (199, -65%Z); (210, -50%Z); (211, -50%Z); (212, -50%Z); (213, -50%Z);
   (214, -50%Z); (216, -50%Z); (217, -50%Z); (218, -50%Z); (219, -50%Z); (220, -50%Z); (221, -70%Z); (249, -30%Z); (250, -30%Z);
   (251, -30%Z); (252, -30%Z); (253, -74%Z); (255, -74%Z); (376, -70%Z); (8217, -74%Z)]);
   (194, [(67, -65%Z); (71, -60%Z); (79, -50%Z); (81, -55%Z); (84, -55%Z); (85, -50%Z); (86, -95%Z); (87, -100%Z); (89, -70%Z);
   (117, -30%Z); (118, -74%Z); (119, -74%Z); (121, -74%Z); (199, -65%Z); (210, -50%Z); (211, -50%Z); (212, -50%Z); (213, -50%Z);
   (214, -50%Z); (216, -50%Z); (217, -50%Z); (218, -50%Z); (219, -50%Z); (220, -50%Z); (221, -70%Z); (249, -30%Z); (250, -30%Z);
   (251, -30%Z); (252, -30%Z); (253, -74%Z); (255, -74%Z); (376, -70%Z); (8217, -74%Z)]);
   (195, [(67, -65%Z); (71, -60%Z); (79, -50%Z); (81, -55%Z); (84, -55%Z); (85, -50%Z); (86, -95%Z); (87, -100%Z); (89, -70%Z);
   (117, -30%Z); (118, -74%Z); (119, -74%Z); (121, -74%Z); (199, -65%Z); (210, -50%Z); (211, -50%Z); (212, -50%Z); (213, -50%Z);
   (214, -50%Z); (216, -50%Z); (217, -50%Z); (218, -50%Z); (219, -50%Z); (220, -50%Z); (221, -70%Z); (249, -30%Z); (250, -30%Z);
   (251, -30%Z); (252, -30%Z); (253, -74%Z); (255, -74%Z); (376, -70%Z); (8217, -74%Z)]);
   (196, [(67, -65%Z); (71, -60%Z); (79, -50%Z); (81, -55%Z); (84, -55%Z); (85, -50%Z); (86, -95%Z); (87, -100%Z); (89, -70%Z);
   (117, -30%Z); (118, -74%Z); (119, -74%Z); (121, -74%Z); (199, -65%Z); (210, -50%Z); (211, -50%Z); (212, -50%Z); (213, -50%Z);
   (214, -50%Z); (216, -50%Z); (217, -50%Z); (218, -50%Z); (219, -50%Z); (220, -50%Z); (221, -70%Z); (249, -30%Z); (250, -30%Z);
   (251, -30%Z); (252, -30%Z); (253, -74%Z); (255, -74%Z); (376, -70%Z); (8217, -74%Z)]);
   (197, [(67, -65%Z); (71, -60%Z); (79, -50%Z); (81, -55%Z); (84, -55%Z); (85, -50%Z); (86, -95%Z); (87, -100%Z); (89, -70%Z);
   (117, -30%Z); (118, -74%Z); (119, -74%Z); (121, -74%Z); (199, -65%Z); (210, -50%Z); (211, -50%Z); (212, -50%Z); (213, -50%Z);
   (214, -50%Z); (216, -50%Z); (217, -50%Z); (218, -50%Z); (219, -50%Z); (220, -50%Z); (221, -70%Z); (249, -30%Z); (250, -30%Z);
   (251, -30%Z); (252, -30%Z); (253, -74%Z); (255, -74%Z); (376, -70%Z); (8217, -74%Z)]);
   (209, [(65, -30%Z); (192, -30%Z); (193, -30%Z); (194, -30%Z); (195, -30%Z); (196, -30%Z); (197, -30%Z)]);
   (210, [(65, -40%Z); (84, -40%Z); (86, -50%Z); (87, -50%Z); (88, -40%Z); (89, -50%Z); (192, -40%Z); (193, -40%Z); (194, -40%Z);
   (195, -40%Z); (196, -40%Z); (197, -40%Z); (221, -50%Z); (376, -50%Z)]);
   (211, [(65, -40%Z); (84, -40%Z); (86, -50%Z); (87, -50%Z); (88, -40%Z); (89, -50%Z); (192, -40%Z); (193, -40%Z); (194, -40%Z);
   (195, -40%Z); (196, -40%Z); (197, -40%Z); (221, -50%Z); (376, -50%Z)]);
   (212, [(65, -40%Z); (84, -40%Z); (86, -50%Z); (87, -50%Z); (88, -40%Z); (89, -50%Z); (192, -40%Z); (193, -40%Z); (194, -40%Z);
   (195, -40%Z); (196, -40%Z); (197, -40%Z); (221, -50%Z); (376, -50%Z)]);
   (213, [(65, -40%Z); (84, -40%Z); (86, -50%Z); (87, -50%Z); (88, -40%Z); (89, -50%Z); (192, -40%Z); (193, -40%Z); (194, -40%Z);
   (195, -40%Z); (196, -40%Z); (197, -40%Z); (221, -50%Z); (376, -50%Z)]);
   (214, [(65, -40%Z); (84, -40%Z); (86, -50%Z); (87, -50%Z); (88, -40%Z); (89, -50%Z); (192, -40%Z); (193, -40%Z); (194, -40%Z);
   (195, -40%Z); (196, -40%Z); (197, -40%Z); (221, -50%Z); (376, -50%Z)]);
   (216, [(65, -40%Z); (84, -40%Z); (86, -50%Z); (87, -50%Z); (88, -40%Z); (89, -50%Z); (192, -40%Z); (193, -40%Z); (194, -40%Z);
   (195, -40%Z); (196, -40%Z); (197, -40%Z); (221, -50%Z); (376, -50%Z)]);
   (217, [(65, -45%Z); (192, -45%Z); (193, -45%Z); (194, -45%Z); (195, -45%Z); (196, -45%Z); (197, -45%Z)]);
   (218, [(65, -45%Z); (192, -45%Z); (193, -45%Z); (194, -45%Z); (195, -45%Z); (196, -45%Z); (197, -45%Z)]);
   (219, [(65, -45%Z); (192, -45%Z); (193, -45%Z); (194, -45%Z); (195, -45%Z); (196, -45%Z); (197, -45%Z)]);
   (220, [(65, -45%Z); (192, -45%Z); (193, -45%Z); (194, -45%Z); (195, -45%Z); (196, -45%Z); (197, -45%Z)]);
   (221, [(44, -92%Z); (45, -92%Z); (46, -74%Z); (58, -92%Z); (59, -92%Z); (65, -74%Z); (79, -25%Z); (97, -92%Z); (101, -111%Z);
   (105, -55%Z); (111, -111%Z); (117, -92%Z); (192, -74%Z); (193, -74%Z); (194, -74%Z); (195, -74%Z); (196, -74%Z); (197, -74%Z);
   (210, -25%Z); (211, -25%Z); (212, -25%Z); (213, -25%Z); (214, -25%Z); (216, -25%Z); (224, -92%Z); (225, -92%Z); (226, -92%Z);
   (227, -92%Z); (228, -92%Z); (229, -92%Z); (232, -71%Z); (233, -111%Z); (234, -71%Z); (235, -71%Z); (237, -55%Z); (242, -111%Z);
   (243, -111%Z); (244, -111%Z); (245, -111%Z); (246, -111%Z); (248, -111%Z); (249, -92%Z); (250, -92%Z); (251, -92%Z); (252, -92%Z)]);
   (231, [(104, -10%Z); (107, -10%Z)]);
   (232, [(98, -10%Z)]);
   (233, [(98, -10%Z)]);
   (234, [(98, -10%Z)]);
   (235, [(98, -10%Z)]);
   (241, [(118, -40%Z)]);
   (242, [(118, -15%Z); (119, -25%Z); (120, -10%Z); (121, -10%Z); (253, -10%Z); (255, -10%Z)]);
   (243, [(118, -15%Z); (119, -25%Z); (120, -10%Z); (121, -10%Z); (253, -10%Z); (255, -10%Z)]);
   (244, [(118, -15%Z); (119, -25%Z); (120, -10%Z); (121, -10%Z); (253, -10%Z); (255, -10%Z)]);
   (245, [(118, -15%Z); (119, -25%Z); (120, -10%Z); (121, -10%Z); (253, -10%Z); (255, -10%Z)]);
   (246, [(118, -15%Z); (119, -25%Z); (120, -10%Z); (121, -10%Z); (253, -10%Z); (255, -10%Z)]);
   (248, [(118, -15%Z); (119, -25%Z); (120, -10%Z); (121, -10%Z); (253, -10%Z); (255, -10%Z)]);
   (253, [(44, -37%Z); (46, -37%Z)]);
   (255, [(44, -37%Z); (46, -37%Z)]);
   (321, [(84, -18%Z); (86, -37%Z); (87, -37%Z); (89, -37%Z); (121, -37%Z); (221, -37%Z); (253, -37%Z); (255, -37%Z); (376, -37%Z);
   (8217, -55%Z)]);
   (376, [(44, -92%Z); (45, -92%Z); (46, -74%Z); (58, -92%Z); (59, -92%Z); (65, -74%Z); (79, -25%Z); (97, -92%Z); (101, -111%Z);
   (105, -55%Z); (111, -111%Z); (117, -92%Z); (192, -74%Z); (193, -74%Z); (194, -74%Z); (195, -74%Z); (196, -74%Z); (197, -74%Z);
   (210, -25%Z); (211, -25%Z); (212, -25%Z); (213, -25%Z); (214, -25%Z); (216, -25%Z); (224, -92%Z); (225, -92%Z); (226, -92%Z);
   (227, -92%Z); (228, -92%Z); (229, -92%Z); (232, -71%Z); (233, -111%Z); (234, -71%Z); (235, -71%Z); (237, -55%Z); (242, -111%Z);
   (243, -111%Z); (244, -111%Z); (245, -111%Z); (246, -111%Z); (248, -111%Z); (249, -92%Z); (250, -92%Z); (251, -92%Z); (252, -92%Z)]);
   (8216, [(8216, -74%Z)]);
   (8217, [(32, -74%Z); (100, -15%Z); (114, -15%Z); (115, -74%Z); (116, -37%Z); (118, -15%Z); (353, -74%Z); (8217, -74%Z)])].
(** what each font uses, with the default width *)
Definition metrics_Helvetica : list (N * Z) * Z * list (N * list (N * Z)) := (w_Helvetica, 556%Z, k_Helvetica).
Definition metrics_Helvetica_Bold : list (N * Z) * Z * list (N * list (N * Z)) := (w_Helvetica_Bold, 611%Z, k_Helvetica_Bold).
Definition metrics_Helvetica_Oblique : list (N * Z) * Z * list (N * list (N * Z)) := (w_Helvetica, 556%Z, k_Helvetica).
Definition metrics_Helvetica_BoldOblique : list (N * Z) * Z * list (N * list (N * Z)) := (w_Helvetica_Bold, 611%Z, k_Helvetica_Bold).
Definition metrics_Times_Roman : list (N * Z) * Z * list (N * list (N * Z)) := (w_Times_Roman, 444%Z, k_Times_Roman).
Definition metrics_Times_Bold : list (N * Z) * Z * list (N * list (N * Z)) := (w_Times_Bold, 500%Z, k_Times_Bold).
Definition metrics_Times_Italic : list (N * Z) * Z * list (N * list (N * Z)) := (w_Times_Italic, 500%Z, k_Times_Italic).
Definition metrics_Times_BoldItalic : list (N * Z) * Z * list (N * list (N * Z)) := (w_Times_BoldItalic, 500%Z, k_Times_BoldItalic).
