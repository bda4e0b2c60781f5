(** The tables of ml4gw/waveforms/cbc/phenom_d_data.py, as integers in units of 1e-10 (copied from the source by tools/gen_phenom.py). *)
From Coq Require Import ZArith List.
Import ListNotations.
Local Open Scope Z_scope.

(** phenom_d_data.py 4-1009 *)
Definition QNMData_a_z : list Z := [
  -10000000000; -9990000000; -9980000000; -9960000000; -9940000000; -9920000000; -9900000000; -9880000000; -9860000000; -9840000000; -9820000000;
  -9800000000; -9780000000; -9760000000; -9740000000; -9720000000; -9700000000; -9680000000; -9660000000; -9640000000; -9620000000; -9600000000;
  -9580000000; -9560000000; -9540000000; -9520000000; -9500000000; -9480000000; -9460000000; -9440000000; -9420000000; -9400000000; -9380000000;
  -9360000000; -9340000000; -9320000000; -9300000000; -9280000000; -9260000000; -9240000000; -9220000000; -9200000000; -9180000000; -9160000000;
  -9140000000; -9120000000; -9100000000; -9080000000; -9060000000; -9040000000; -9020000000; -9000000000; -8980000000; -8960000000; -8940000000;
  -8920000000; -8900000000; -8880000000; -8860000000; -8840000000; -8820000000; -8800000000; -8780000000; -8760000000; -8740000000; -8720000000;
  -8700000000; -8680000000; -8660000000; -8640000000; -8620000000; -8600000000; -8580000000; -8560000000; -8540000000; -8520000000; -8500000000;
  -8480000000; -8460000000; -8440000000; -8420000000; -8400000000; -8380000000; -8360000000; -8340000000; -8320000000; -8300000000; -8280000000;
  -8260000000; -8240000000; -8220000000; -8200000000; -8180000000; -8160000000; -8140000000; -8120000000; -8100000000; -8080000000; -8060000000;
  -8040000000; -8020000000; -8000000000; -7980000000; -7960000000; -7940000000; -7920000000; -7900000000; -7880000000; -7860000000; -7840000000;
  -7820000000; -7800000000; -7780000000; -7760000000; -7740000000; -7720000000; -7700000000; -7680000000; -7660000000; -7640000000; -7620000000;
  -7600000000; -7580000000; -7560000000; -7540000000; -7520000000; -7500000000; -7480000000; -7460000000; -7440000000; -7420000000; -7400000000;
  -7380000000; -7360000000; -7340000000; -7320000000; -7300000000; -7280000000; -7260000000; -7240000000; -7220000000; -7200000000; -7180000000;
  -7160000000; -7140000000; -7120000000; -7100000000; -7080000000; -7060000000; -7040000000; -7020000000; -7000000000; -6980000000; -6960000000;
  -6940000000; -6920000000; -6900000000; -6880000000; -6860000000; -6840000000; -6820000000; -6800000000; -6780000000; -6760000000; -6740000000;
  -6720000000; -6700000000; -6680000000; -6660000000; -6640000000; -6620000000; -6600000000; -6580000000; -6560000000; -6540000000; -6520000000;
  -6500000000; -6480000000; -6460000000; -6440000000; -6420000000; -6400000000; -6380000000; -6360000000; -6340000000; -6320000000; -6300000000;
  -6280000000; -6260000000; -6240000000; -6220000000; -6200000000; -6180000000; -6160000000; -6140000000; -6120000000; -6100000000; -6080000000;
  -6060000000; -6040000000; -6020000000; -6000000000; -5980000000; -5960000000; -5940000000; -5920000000; -5900000000; -5880000000; -5860000000;
  -5840000000; -5820000000; -5800000000; -5780000000; -5760000000; -5740000000; -5720000000; -5700000000; -5680000000; -5660000000; -5640000000;
  -5620000000; -5600000000; -5580000000; -5560000000; -5540000000; -5520000000; -5500000000; -5480000000; -5460000000; -5440000000; -5420000000;
  -5400000000; -5380000000; -5360000000; -5340000000; -5320000000; -5300000000; -5280000000; -5260000000; -5240000000; -5220000000; -5200000000;
  -5180000000; -5160000000; -5140000000; -5120000000; -5100000000; -5080000000; -5060000000; -5040000000; -5020000000; -5000000000; -4980000000;
  -4960000000; -4940000000; -4920000000; -4900000000; -4880000000; -4860000000; -4840000000; -4820000000; -4800000000; -4780000000; -4760000000;
  -4740000000; -4720000000; -4700000000; -4680000000; -4660000000; -4640000000; -4620000000; -4600000000; -4580000000; -4560000000; -4540000000;
  -4520000000; -4500000000; -4480000000; -4460000000; -4440000000; -4420000000; -4400000000; -4380000000; -4360000000; -4340000000; -4320000000;
  -4300000000; -4280000000; -4260000000; -4240000000; -4220000000; -4200000000; -4180000000; -4160000000; -4140000000; -4120000000; -4100000000;
  -4080000000; -4060000000; -4040000000; -4020000000; -4000000000; -3980000000; -3960000000; -3940000000; -3920000000; -3900000000; -3880000000;
  -3860000000; -3840000000; -3820000000; -3800000000; -3780000000; -3760000000; -3740000000; -3720000000; -3700000000; -3680000000; -3660000000;
  -3640000000; -3620000000; -3600000000; -3580000000; -3560000000; -3540000000; -3520000000; -3500000000; -3480000000; -3460000000; -3440000000;
  -3420000000; -3400000000; -3380000000; -3360000000; -3340000000; -3320000000; -3300000000; -3280000000; -3260000000; -3240000000; -3220000000;
  -3200000000; -3180000000; -3160000000; -3140000000; -3120000000; -3100000000; -3080000000; -3060000000; -3040000000; -3020000000; -3000000000;
  -2980000000; -2960000000; -2940000000; -2920000000; -2900000000; -2880000000; -2860000000; -2840000000; -2820000000; -2800000000; -2780000000;
  -2760000000; -2740000000; -2720000000; -2700000000; -2680000000; -2660000000; -2640000000; -2620000000; -2600000000; -2580000000; -2560000000;
  -2540000000; -2520000000; -2500000000; -2480000000; -2460000000; -2440000000; -2420000000; -2400000000; -2380000000; -2360000000; -2340000000;
  -2320000000; -2300000000; -2280000000; -2260000000; -2240000000; -2220000000; -2200000000; -2180000000; -2160000000; -2140000000; -2120000000;
  -2100000000; -2080000000; -2060000000; -2040000000; -2020000000; -2000000000; -1980000000; -1960000000; -1940000000; -1920000000; -1900000000;
  -1880000000; -1860000000; -1840000000; -1820000000; -1800000000; -1780000000; -1760000000; -1740000000; -1720000000; -1700000000; -1680000000;
  -1660000000; -1640000000; -1620000000; -1600000000; -1580000000; -1560000000; -1540000000; -1520000000; -1500000000; -1480000000; -1460000000;
  -1440000000; -1420000000; -1400000000; -1380000000; -1360000000; -1340000000; -1320000000; -1300000000; -1280000000; -1260000000; -1240000000;
  -1220000000; -1200000000; -1180000000; -1160000000; -1140000000; -1120000000; -1100000000; -1080000000; -1060000000; -1040000000; -1020000000;
  -1000000000; -980000000; -960000000; -940000000; -920000000; -900000000; -880000000; -860000000; -840000000; -820000000; -800000000; -780000000;
  -760000000; -740000000; -720000000; -700000000; -680000000; -660000000; -640000000; -620000000; -600000000; -580000000; -560000000; -540000000;
  -520000000; -500000000; -480000000; -460000000; -440000000; -420000000; -400000000; -380000000; -360000000; -340000000; -320000000; -300000000;
  -280000000; -260000000; -240000000; -220000000; -200000000; -180000000; -160000000; -140000000; -120000000; -100000000; -80000000; -60000000;
  -40000000; -20000000; 0; 20000000; 40000000; 60000000; 80000000; 100000000; 120000000; 140000000; 160000000; 180000000; 200000000; 220000000;
  240000000; 260000000; 280000000; 300000000; 320000000; 340000000; 360000000; 380000000; 400000000; 420000000; 440000000; 460000000; 480000000;
  500000000; 520000000; 540000000; 560000000; 580000000; 600000000; 620000000; 640000000; 660000000; 680000000; 700000000; 720000000; 740000000;
  760000000; 780000000; 800000000; 820000000; 840000000; 860000000; 880000000; 900000000; 920000000; 940000000; 960000000; 980000000; 1000000000;
  1020000000; 1040000000; 1060000000; 1080000000; 1100000000; 1120000000; 1140000000; 1160000000; 1180000000; 1200000000; 1220000000; 1240000000;
  1260000000; 1280000000; 1300000000; 1320000000; 1340000000; 1360000000; 1380000000; 1400000000; 1420000000; 1440000000; 1460000000; 1480000000;
  1500000000; 1520000000; 1540000000; 1560000000; 1580000000; 1600000000; 1620000000; 1640000000; 1660000000; 1680000000; 1700000000; 1720000000;
  1740000000; 1760000000; 1780000000; 1800000000; 1820000000; 1840000000; 1860000000; 1880000000; 1900000000; 1920000000; 1940000000; 1960000000;
  1980000000; 2000000000; 2020000000; 2040000000; 2060000000; 2080000000; 2100000000; 2120000000; 2140000000; 2160000000; 2180000000; 2200000000;
  2220000000; 2240000000; 2260000000; 2280000000; 2300000000; 2320000000; 2340000000; 2360000000; 2380000000; 2400000000; 2420000000; 2440000000;
  2460000000; 2480000000; 2500000000; 2520000000; 2540000000; 2560000000; 2580000000; 2600000000; 2620000000; 2640000000; 2660000000; 2680000000;
  2700000000; 2720000000; 2740000000; 2760000000; 2780000000; 2800000000; 2820000000; 2840000000; 2860000000; 2880000000; 2900000000; 2920000000;
  2940000000; 2960000000; 2980000000; 3000000000; 3020000000; 3040000000; 3060000000; 3080000000; 3100000000; 3120000000; 3140000000; 3160000000;
  3180000000; 3200000000; 3220000000; 3240000000; 3260000000; 3280000000; 3300000000; 3320000000; 3340000000; 3360000000; 3380000000; 3400000000;
  3420000000; 3440000000; 3460000000; 3480000000; 3500000000; 3520000000; 3540000000; 3560000000; 3580000000; 3600000000; 3620000000; 3640000000;
  3660000000; 3680000000; 3700000000; 3720000000; 3740000000; 3760000000; 3780000000; 3800000000; 3820000000; 3840000000; 3860000000; 3880000000;
  3900000000; 3920000000; 3940000000; 3960000000; 3980000000; 4000000000; 4020000000; 4040000000; 4060000000; 4080000000; 4100000000; 4120000000;
  4140000000; 4160000000; 4180000000; 4200000000; 4220000000; 4240000000; 4260000000; 4280000000; 4300000000; 4320000000; 4340000000; 4360000000;
  4380000000; 4400000000; 4420000000; 4440000000; 4460000000; 4480000000; 4500000000; 4520000000; 4540000000; 4560000000; 4580000000; 4600000000;
  4620000000; 4640000000; 4660000000; 4680000000; 4700000000; 4720000000; 4740000000; 4760000000; 4780000000; 4800000000; 4820000000; 4840000000;
  4860000000; 4880000000; 4900000000; 4920000000; 4940000000; 4960000000; 4980000000; 5000000000; 5020000000; 5040000000; 5060000000; 5080000000;
  5100000000; 5120000000; 5140000000; 5160000000; 5180000000; 5200000000; 5220000000; 5240000000; 5260000000; 5280000000; 5300000000; 5320000000;
  5340000000; 5360000000; 5380000000; 5400000000; 5420000000; 5440000000; 5460000000; 5480000000; 5500000000; 5520000000; 5540000000; 5560000000;
  5580000000; 5600000000; 5620000000; 5640000000; 5660000000; 5680000000; 5700000000; 5720000000; 5740000000; 5760000000; 5780000000; 5800000000;
  5820000000; 5840000000; 5860000000; 5880000000; 5900000000; 5920000000; 5940000000; 5960000000; 5980000000; 6000000000; 6020000000; 6040000000;
  6060000000; 6080000000; 6100000000; 6120000000; 6140000000; 6160000000; 6180000000; 6200000000; 6220000000; 6240000000; 6260000000; 6280000000;
  6300000000; 6320000000; 6340000000; 6360000000; 6380000000; 6400000000; 6420000000; 6440000000; 6460000000; 6480000000; 6500000000; 6520000000;
  6540000000; 6560000000; 6580000000; 6600000000; 6620000000; 6640000000; 6660000000; 6680000000; 6700000000; 6720000000; 6740000000; 6760000000;
  6780000000; 6800000000; 6820000000; 6840000000; 6860000000; 6880000000; 6900000000; 6920000000; 6940000000; 6960000000; 6980000000; 7000000000;
  7020000000; 7040000000; 7060000000; 7080000000; 7100000000; 7120000000; 7140000000; 7160000000; 7180000000; 7200000000; 7220000000; 7240000000;
  7260000000; 7280000000; 7300000000; 7320000000; 7340000000; 7360000000; 7380000000; 7400000000; 7420000000; 7440000000; 7460000000; 7480000000;
  7500000000; 7520000000; 7540000000; 7560000000; 7580000000; 7600000000; 7620000000; 7640000000; 7660000000; 7680000000; 7700000000; 7720000000;
  7740000000; 7760000000; 7780000000; 7800000000; 7820000000; 7840000000; 7860000000; 7880000000; 7900000000; 7920000000; 7940000000; 7960000000;
  7980000000; 8000000000; 8020000000; 8040000000; 8060000000; 8080000000; 8100000000; 8120000000; 8140000000; 8160000000; 8180000000; 8200000000;
  8220000000; 8240000000; 8260000000; 8280000000; 8300000000; 8320000000; 8340000000; 8360000000; 8380000000; 8400000000; 8420000000; 8440000000;
  8460000000; 8480000000; 8500000000; 8520000000; 8540000000; 8560000000; 8580000000; 8600000000; 8620000000; 8640000000; 8660000000; 8680000000;
  8700000000; 8720000000; 8740000000; 8760000000; 8780000000; 8800000000; 8820000000; 8840000000; 8860000000; 8880000000; 8900000000; 8920000000;
  8940000000; 8960000000; 8980000000; 9000000000; 9020000000; 9040000000; 9060000000; 9080000000; 9100000000; 9120000000; 9140000000; 9160000000;
  9180000000; 9200000000; 9220000000; 9240000000; 9260000000; 9280000000; 9300000000; 9320000000; 9340000000; 9360000000; 9380000000; 9400000000;
  9420000000; 9440000000; 9460000000; 9480000000; 9500000000; 9520000000; 9540000000; 9560000000; 9580000000; 9600000000; 9620000000; 9640000000;
  9660000000; 9680000000; 9700000000; 9720000000; 9740000000; 9760000000; 9780000000; 9800000000; 9820000000; 9840000000; 9860000000; 9880000000;
  9900000000; 9920000000; 9940000000; 9960000000; 9980000000; 9990000000; 10000000000].
(** phenom_d_data.py 1012-2017 *)
Definition QNMData_fring_z : list Z := [
  464014000; 464110000; 464197000; 464373000; 464526000; 464730000; 464909000; 465084000; 465259000; 465435000; 465611000; 465789000; 465966000;
  466144000; 466322000; 466501000; 466679000; 466858000; 467038000; 467217000; 467397000; 467577000; 467757000; 467937000; 468117000; 468298000;
  468479000; 468660000; 468842000; 469024000; 469205000; 469388000; 469570000; 469752000; 469935000; 470118000; 470302000; 470485000; 470669000;
  470853000; 471037000; 471221000; 471406000; 471591000; 471776000; 471962000; 472147000; 472333000; 472519000; 472705000; 472892000; 473079000;
  473266000; 473453000; 473641000; 473829000; 474017000; 474205000; 474393000; 474582000; 474771000; 474960000; 475150000; 475340000; 475530000;
  475720000; 475910000; 476101000; 476292000; 476483000; 476675000; 476866000; 477058000; 477251000; 477443000; 477636000; 477829000; 478022000;
  478216000; 478409000; 478603000; 478798000; 478992000; 479187000; 479382000; 479577000; 479773000; 479969000; 480165000; 480361000; 480558000;
  480755000; 480952000; 481149000; 481347000; 481545000; 481743000; 481942000; 482140000; 482339000; 482539000; 482738000; 482938000; 483138000;
  483339000; 483539000; 483740000; 483941000; 484143000; 484345000; 484547000; 484749000; 484951000; 485154000; 485357000; 485561000; 485764000;
  485968000; 486173000; 486377000; 486582000; 486787000; 486992000; 487198000; 487404000; 487610000; 487817000; 488024000; 488231000; 488438000;
  488646000; 488854000; 489062000; 489270000; 489479000; 489688000; 489898000; 490108000; 490318000; 490528000; 490739000; 490949000; 491161000;
  491372000; 491584000; 491796000; 492008000; 492221000; 492434000; 492647000; 492861000; 493075000; 493289000; 493504000; 493719000; 493934000;
  494149000; 494365000; 494581000; 494797000; 495014000; 495231000; 495448000; 495666000; 495884000; 496102000; 496321000; 496540000; 496759000;
  496979000; 497198000; 497419000; 497639000; 497860000; 498081000; 498302000; 498524000; 498746000; 498969000; 499192000; 499415000; 499638000;
  499862000; 500086000; 500310000; 500535000; 500760000; 500986000; 501212000; 501438000; 501664000; 501891000; 502118000; 502345000; 502573000;
  502801000; 503030000; 503259000; 503488000; 503717000; 503947000; 504177000; 504408000; 504639000; 504870000; 505102000; 505334000; 505566000;
  505799000; 506032000; 506265000; 506499000; 506733000; 506967000; 507202000; 507437000; 507673000; 507909000; 508145000; 508381000; 508618000;
  508856000; 509093000; 509332000; 509570000; 509809000; 510048000; 510288000; 510527000; 510768000; 511008000; 511249000; 511491000; 511733000;
  511975000; 512217000; 512460000; 512704000; 512947000; 513192000; 513436000; 513681000; 513926000; 514172000; 514418000; 514664000; 514911000;
  515158000; 515406000; 515654000; 515902000; 516151000; 516400000; 516650000; 516900000; 517150000; 517401000; 517652000; 517904000; 518156000;
  518408000; 518661000; 518914000; 519168000; 519422000; 519677000; 519931000; 520187000; 520443000; 520699000; 520955000; 521212000; 521470000;
  521727000; 521986000; 522244000; 522503000; 522763000; 523023000; 523283000; 523544000; 523805000; 524067000; 524329000; 524592000; 524855000;
  525118000; 525382000; 525646000; 525911000; 526176000; 526442000; 526708000; 526975000; 527242000; 527509000; 527777000; 528045000; 528314000;
  528583000; 528853000; 529123000; 529394000; 529665000; 529936000; 530208000; 530481000; 530754000; 531027000; 531301000; 531576000; 531850000;
  532126000; 532402000; 532678000; 532954000; 533232000; 533509000; 533788000; 534066000; 534345000; 534625000; 534905000; 535186000; 535467000;
  535749000; 536031000; 536313000; 536596000; 536880000; 537164000; 537449000; 537734000; 538019000; 538305000; 538592000; 538879000; 539167000;
  539455000; 539744000; 540033000; 540322000; 540613000; 540903000; 541195000; 541486000; 541779000; 542072000; 542365000; 542659000; 542953000;
  543248000; 543544000; 543840000; 544136000; 544433000; 544731000; 545029000; 545328000; 545627000; 545927000; 546228000; 546529000; 546830000;
  547132000; 547435000; 547738000; 548042000; 548346000; 548651000; 548956000; 549262000; 549569000; 549876000; 550184000; 550492000; 550801000;
  551111000; 551421000; 551731000; 552043000; 552354000; 552667000; 552980000; 553293000; 553608000; 553922000; 554238000; 554554000; 554870000;
  555188000; 555505000; 555824000; 556143000; 556463000; 556783000; 557104000; 557425000; 557747000; 558070000; 558393000; 558717000; 559042000;
  559367000; 559693000; 560020000; 560347000; 560675000; 561003000; 561333000; 561662000; 561993000; 562324000; 562656000; 562988000; 563321000;
  563655000; 563989000; 564324000; 564660000; 564996000; 565333000; 565671000; 566010000; 566349000; 566688000; 567029000; 567370000; 567712000;
  568054000; 568398000; 568742000; 569086000; 569432000; 569778000; 570124000; 570472000; 570820000; 571169000; 571519000; 571869000; 572220000;
  572572000; 572924000; 573278000; 573632000; 573986000; 574342000; 574698000; 575055000; 575413000; 575771000; 576130000; 576490000; 576851000;
  577213000; 577575000; 577938000; 578302000; 578666000; 579032000; 579398000; 579765000; 580132000; 580501000; 580870000; 581240000; 581611000;
  581983000; 582355000; 582728000; 583102000; 583477000; 583853000; 584230000; 584607000; 584985000; 585364000; 585744000; 586125000; 586506000;
  586888000; 587272000; 587656000; 588040000; 588426000; 588813000; 589200000; 589589000; 589978000; 590368000; 590759000; 591151000; 591543000;
  591937000; 592331000; 592727000; 593123000; 593520000; 593918000; 594317000; 594717000; 595118000; 595519000; 595922000; 596326000; 596730000;
  597135000; 597542000; 597949000; 598357000; 598767000; 599177000; 599588000; 600000000; 600413000; 600827000; 601242000; 601658000; 602074000;
  602492000; 602911000; 603331000; 603752000; 604174000; 604597000; 605020000; 605445000; 605871000; 606298000; 606726000; 607155000; 607585000;
  608016000; 608448000; 608881000; 609315000; 609751000; 610187000; 610624000; 611063000; 611502000; 611943000; 612385000; 612827000; 613271000;
  613716000; 614162000; 614609000; 615058000; 615507000; 615958000; 616409000; 616862000; 617316000; 617771000; 618227000; 618684000; 619143000;
  619603000; 620064000; 620526000; 620989000; 621453000; 621919000; 622385000; 622853000; 623323000; 623793000; 624265000; 624737000; 625212000;
  625687000; 626163000; 626641000; 627120000; 627600000; 628082000; 628565000; 629049000; 629534000; 630021000; 630509000; 630998000; 631489000;
  631981000; 632474000; 632968000; 633464000; 633961000; 634460000; 634960000; 635461000; 635964000; 636468000; 636973000; 637480000; 637988000;
  638497000; 639008000; 639520000; 640034000; 640549000; 641066000; 641584000; 642103000; 642624000; 643147000; 643671000; 644196000; 644723000;
  645251000; 645781000; 646312000; 646845000; 647379000; 647915000; 648453000; 648992000; 649532000; 650074000; 650618000; 651163000; 651710000;
  652258000; 652808000; 653360000; 653913000; 654468000; 655024000; 655582000; 656142000; 656703000; 657266000; 657831000; 658398000; 658966000;
  659535000; 660107000; 660680000; 661255000; 661832000; 662411000; 662991000; 663573000; 664157000; 664742000; 665330000; 665919000; 666510000;
  667103000; 667697000; 668294000; 668892000; 669493000; 670095000; 670699000; 671305000; 671913000; 672523000; 673134000; 673748000; 674364000;
  674981000; 675601000; 676222000; 676846000; 677471000; 678099000; 678729000; 679360000; 679994000; 680630000; 681268000; 681908000; 682550000;
  683194000; 683841000; 684489000; 685140000; 685793000; 686448000; 687105000; 687765000; 688426000; 689090000; 689757000; 690425000; 691096000;
  691769000; 692444000; 693122000; 693802000; 694484000; 695169000; 695856000; 696546000; 697238000; 697932000; 698629000; 699328000; 700030000;
  700734000; 701441000; 702151000; 702862000; 703577000; 704294000; 705013000; 705735000; 706460000; 707188000; 707918000; 708651000; 709386000;
  710124000; 710865000; 711609000; 712355000; 713105000; 713857000; 714612000; 715369000; 716130000; 716893000; 717660000; 718429000; 719201000;
  719976000; 720755000; 721536000; 722320000; 723107000; 723898000; 724691000; 725488000; 726287000; 727090000; 727896000; 728705000; 729518000;
  730333000; 731152000; 731975000; 732800000; 733629000; 734462000; 735297000; 736136000; 736979000; 737825000; 738675000; 739528000; 740384000;
  741245000; 742109000; 742976000; 743847000; 744722000; 745601000; 746483000; 747369000; 748259000; 749153000; 750050000; 750952000; 751857000;
  752767000; 753680000; 754597000; 755519000; 756445000; 757374000; 758308000; 759246000; 760188000; 761135000; 762086000; 763041000; 764001000;
  764965000; 765933000; 766906000; 767883000; 768865000; 769852000; 770843000; 771839000; 772840000; 773845000; 774855000; 775870000; 776890000;
  777915000; 778945000; 779980000; 781020000; 782065000; 783115000; 784170000; 785231000; 786297000; 787368000; 788445000; 789527000; 790614000;
  791708000; 792806000; 793911000; 795021000; 796137000; 797259000; 798386000; 799520000; 800660000; 801805000; 802957000; 804115000; 805279000;
  806449000; 807626000; 808809000; 809999000; 811195000; 812398000; 813608000; 814824000; 816048000; 817278000; 818515000; 819759000; 821010000;
  822269000; 823534000; 824808000; 826088000; 827376000; 828672000; 829975000; 831286000; 832605000; 833932000; 835267000; 836610000; 837962000;
  839321000; 840689000; 842066000; 843451000; 844845000; 846248000; 847660000; 849080000; 850510000; 851949000; 853398000; 854856000; 856323000;
  857800000; 859287000; 860784000; 862292000; 863809000; 865336000; 866875000; 868423000; 869983000; 871553000; 873135000; 874727000; 876331000;
  877947000; 879574000; 881213000; 882864000; 884527000; 886202000; 887890000; 889591000; 891304000; 893031000; 894770000; 896523000; 898290000;
  900070000; 901865000; 903674000; 905497000; 907335000; 909188000; 911056000; 912939000; 914838000; 916753000; 918684000; 920631000; 922595000;
  924576000; 926574000; 928590000; 930623000; 932675000; 934745000; 936834000; 938942000; 941069000; 943216000; 945384000; 947571000; 949780000;
  952010000; 954262000; 956536000; 958832000; 961151000; 963494000; 965860000; 968251000; 970667000; 973109000; 975576000; 978069000; 980590000;
  983138000; 985715000; 988320000; 990955000; 993620000; 996316000; 999043000; 1001800000; 1004600000; 1007420000; 1010280000; 1013180000; 1016110000;
  1019080000; 1022090000; 1025140000; 1028230000; 1031360000; 1034540000; 1037750000; 1041020000; 1044320000; 1047680000; 1051090000; 1054540000;
  1058050000; 1061610000; 1065230000; 1068910000; 1072640000; 1076440000; 1080300000; 1084220000; 1088220000; 1092280000; 1096420000; 1100630000;
  1104930000; 1109300000; 1113760000; 1118310000; 1122950000; 1127690000; 1132540000; 1137480000; 1142540000; 1147720000; 1153020000; 1158450000;
  1164010000; 1169720000; 1175590000; 1181610000; 1187810000; 1194180000; 1200760000; 1207540000; 1214540000; 1221790000; 1229300000; 1237090000;
  1245190000; 1253620000; 1262430000; 1271650000; 1281320000; 1291510000; 1302280000; 1313710000; 1325920000; 1339040000; 1353250000; 1368810000;
  1386070000; 1405600000; 1428330000; 1456111000; 1493707000; 1521282000; 1579619000].
(** phenom_d_data.py 2020-3025 *)
Definition QNMData_fdamp_z : list Z := [
  140098000; 140102000; 140106000; 140114000; 140177000; 140154000; 140148000; 140150000; 140156000; 140164000; 140172000; 140181000; 140189000;
  140198000; 140206000; 140214000; 140223000; 140231000; 140239000; 140247000; 140256000; 140264000; 140272000; 140280000; 140288000; 140296000;
  140305000; 140313000; 140321000; 140329000; 140337000; 140345000; 140353000; 140361000; 140369000; 140377000; 140385000; 140393000; 140401000;
  140409000; 140417000; 140425000; 140433000; 140440000; 140448000; 140456000; 140464000; 140472000; 140480000; 140487000; 140495000; 140503000;
  140511000; 140519000; 140526000; 140534000; 140542000; 140549000; 140557000; 140565000; 140572000; 140580000; 140587000; 140595000; 140603000;
  140610000; 140618000; 140625000; 140633000; 140640000; 140648000; 140655000; 140663000; 140670000; 140677000; 140685000; 140692000; 140700000;
  140707000; 140714000; 140722000; 140729000; 140736000; 140744000; 140751000; 140758000; 140765000; 140772000; 140780000; 140787000; 140794000;
  140801000; 140808000; 140815000; 140822000; 140829000; 140837000; 140844000; 140851000; 140858000; 140865000; 140872000; 140879000; 140885000;
  140892000; 140899000; 140906000; 140913000; 140920000; 140927000; 140934000; 140940000; 140947000; 140954000; 140961000; 140967000; 140974000;
  140981000; 140988000; 140994000; 141001000; 141007000; 141014000; 141021000; 141027000; 141034000; 141040000; 141047000; 141053000; 141060000;
  141066000; 141073000; 141079000; 141086000; 141092000; 141098000; 141105000; 141111000; 141117000; 141124000; 141130000; 141136000; 141142000;
  141149000; 141155000; 141161000; 141167000; 141173000; 141180000; 141186000; 141192000; 141198000; 141204000; 141210000; 141216000; 141222000;
  141228000; 141234000; 141240000; 141246000; 141252000; 141257000; 141263000; 141269000; 141275000; 141281000; 141287000; 141292000; 141298000;
  141304000; 141309000; 141315000; 141321000; 141326000; 141332000; 141338000; 141343000; 141349000; 141354000; 141360000; 141365000; 141371000;
  141376000; 141382000; 141387000; 141392000; 141398000; 141403000; 141408000; 141414000; 141419000; 141424000; 141429000; 141435000; 141440000;
  141445000; 141450000; 141455000; 141460000; 141466000; 141471000; 141476000; 141481000; 141486000; 141491000; 141496000; 141500000; 141505000;
  141510000; 141515000; 141520000; 141525000; 141530000; 141534000; 141539000; 141544000; 141549000; 141553000; 141558000; 141562000; 141567000;
  141572000; 141576000; 141581000; 141585000; 141590000; 141594000; 141599000; 141603000; 141608000; 141612000; 141616000; 141621000; 141625000;
  141629000; 141633000; 141638000; 141642000; 141646000; 141650000; 141654000; 141658000; 141662000; 141667000; 141671000; 141675000; 141679000;
  141683000; 141686000; 141690000; 141694000; 141698000; 141702000; 141706000; 141710000; 141713000; 141717000; 141721000; 141724000; 141728000;
  141732000; 141735000; 141739000; 141742000; 141746000; 141749000; 141753000; 141756000; 141760000; 141763000; 141766000; 141770000; 141773000;
  141776000; 141780000; 141783000; 141786000; 141789000; 141792000; 141796000; 141799000; 141802000; 141805000; 141808000; 141811000; 141814000;
  141817000; 141819000; 141822000; 141825000; 141828000; 141831000; 141833000; 141836000; 141839000; 141842000; 141844000; 141847000; 141849000;
  141852000; 141854000; 141857000; 141859000; 141862000; 141864000; 141867000; 141869000; 141871000; 141874000; 141876000; 141878000; 141880000;
  141882000; 141884000; 141887000; 141889000; 141891000; 141893000; 141895000; 141897000; 141899000; 141900000; 141902000; 141904000; 141906000;
  141908000; 141909000; 141911000; 141913000; 141914000; 141916000; 141917000; 141919000; 141920000; 141922000; 141923000; 141925000; 141926000;
  141927000; 141929000; 141930000; 141931000; 141932000; 141934000; 141935000; 141936000; 141937000; 141938000; 141939000; 141940000; 141941000;
  141942000; 141942000; 141943000; 141944000; 141945000; 141946000; 141946000; 141947000; 141947000; 141948000; 141949000; 141949000; 141949000;
  141950000; 141950000; 141951000; 141951000; 141951000; 141951000; 141952000; 141952000; 141952000; 141952000; 141952000; 141952000; 141952000;
  141952000; 141952000; 141952000; 141952000; 141951000; 141951000; 141951000; 141950000; 141950000; 141950000; 141949000; 141949000; 141948000;
  141948000; 141947000; 141946000; 141946000; 141945000; 141944000; 141943000; 141942000; 141941000; 141940000; 141939000; 141938000; 141937000;
  141936000; 141935000; 141934000; 141933000; 141931000; 141930000; 141929000; 141927000; 141926000; 141924000; 141923000; 141921000; 141919000;
  141918000; 141916000; 141914000; 141912000; 141911000; 141909000; 141907000; 141905000; 141903000; 141901000; 141898000; 141896000; 141894000;
  141892000; 141889000; 141887000; 141885000; 141882000; 141880000; 141877000; 141874000; 141872000; 141869000; 141866000; 141863000; 141860000;
  141858000; 141855000; 141852000; 141848000; 141845000; 141842000; 141839000; 141836000; 141832000; 141829000; 141826000; 141822000; 141819000;
  141815000; 141811000; 141808000; 141804000; 141800000; 141796000; 141792000; 141788000; 141784000; 141780000; 141776000; 141772000; 141768000;
  141763000; 141759000; 141755000; 141750000; 141746000; 141741000; 141736000; 141732000; 141727000; 141722000; 141717000; 141712000; 141707000;
  141702000; 141697000; 141692000; 141687000; 141681000; 141676000; 141671000; 141665000; 141659000; 141654000; 141648000; 141642000; 141637000;
  141631000; 141625000; 141619000; 141613000; 141607000; 141600000; 141594000; 141588000; 141582000; 141575000; 141569000; 141562000; 141555000;
  141549000; 141542000; 141535000; 141528000; 141521000; 141514000; 141507000; 141500000; 141492000; 141485000; 141478000; 141470000; 141462000;
  141455000; 141447000; 141439000; 141431000; 141424000; 141416000; 141407000; 141399000; 141391000; 141383000; 141374000; 141366000; 141357000;
  141349000; 141340000; 141331000; 141322000; 141313000; 141304000; 141295000; 141286000; 141277000; 141267000; 141258000; 141248000; 141239000;
  141229000; 141219000; 141210000; 141200000; 141190000; 141180000; 141169000; 141159000; 141149000; 141138000; 141128000; 141117000; 141106000;
  141095000; 141085000; 141074000; 141062000; 141051000; 141040000; 141029000; 141017000; 141006000; 140994000; 140982000; 140970000; 140958000;
  140946000; 140934000; 140922000; 140910000; 140897000; 140885000; 140872000; 140859000; 140846000; 140833000; 140820000; 140807000; 140794000;
  140781000; 140767000; 140753000; 140740000; 140726000; 140712000; 140698000; 140684000; 140670000; 140655000; 140641000; 140626000; 140612000;
  140597000; 140582000; 140567000; 140552000; 140536000; 140521000; 140505000; 140490000; 140474000; 140458000; 140442000; 140426000; 140410000;
  140393000; 140377000; 140360000; 140343000; 140327000; 140310000; 140292000; 140275000; 140258000; 140240000; 140223000; 140205000; 140187000;
  140169000; 140151000; 140132000; 140114000; 140095000; 140076000; 140057000; 140038000; 140019000; 140000000; 139980000; 139961000; 139941000;
  139921000; 139901000; 139881000; 139860000; 139840000; 139819000; 139798000; 139777000; 139756000; 139735000; 139713000; 139691000; 139670000;
  139648000; 139625000; 139603000; 139581000; 139558000; 139535000; 139512000; 139489000; 139466000; 139442000; 139419000; 139395000; 139371000;
  139346000; 139322000; 139297000; 139273000; 139248000; 139223000; 139197000; 139172000; 139146000; 139120000; 139094000; 139068000; 139041000;
  139014000; 138987000; 138960000; 138933000; 138906000; 138878000; 138850000; 138822000; 138793000; 138765000; 138736000; 138707000; 138678000;
  138648000; 138619000; 138589000; 138559000; 138528000; 138498000; 138467000; 138436000; 138405000; 138373000; 138341000; 138309000; 138277000;
  138244000; 138212000; 138179000; 138145000; 138112000; 138078000; 138044000; 138010000; 137975000; 137940000; 137905000; 137870000; 137834000;
  137798000; 137762000; 137726000; 137689000; 137652000; 137615000; 137577000; 137539000; 137501000; 137462000; 137424000; 137384000; 137345000;
  137305000; 137265000; 137225000; 137184000; 137143000; 137102000; 137060000; 137018000; 136976000; 136933000; 136890000; 136847000; 136803000;
  136759000; 136715000; 136670000; 136625000; 136579000; 136533000; 136487000; 136441000; 136394000; 136346000; 136298000; 136250000; 136202000;
  136153000; 136103000; 136054000; 136004000; 135953000; 135902000; 135851000; 135799000; 135747000; 135694000; 135641000; 135587000; 135533000;
  135479000; 135424000; 135368000; 135312000; 135256000; 135199000; 135142000; 135084000; 135026000; 134967000; 134907000; 134848000; 134787000;
  134726000; 134665000; 134603000; 134541000; 134478000; 134414000; 134350000; 134285000; 134220000; 134154000; 134088000; 134021000; 133953000;
  133885000; 133816000; 133747000; 133676000; 133606000; 133534000; 133462000; 133390000; 133316000; 133242000; 133168000; 133092000; 133016000;
  132940000; 132862000; 132784000; 132705000; 132625000; 132545000; 132464000; 132382000; 132299000; 132216000; 132131000; 132046000; 131960000;
  131874000; 131786000; 131697000; 131608000; 131518000; 131427000; 131335000; 131242000; 131148000; 131054000; 130958000; 130861000; 130764000;
  130665000; 130566000; 130465000; 130363000; 130261000; 130157000; 130052000; 129946000; 129839000; 129731000; 129622000; 129512000; 129400000;
  129288000; 129174000; 129059000; 128942000; 128825000; 128706000; 128586000; 128464000; 128342000; 128218000; 128092000; 127965000; 127837000;
  127707000; 127576000; 127443000; 127309000; 127174000; 127036000; 126898000; 126757000; 126615000; 126472000; 126326000; 126179000; 126031000;
  125880000; 125728000; 125574000; 125418000; 125260000; 125100000; 124938000; 124774000; 124609000; 124441000; 124271000; 124099000; 123925000;
  123748000; 123570000; 123389000; 123205000; 123020000; 122832000; 122641000; 122448000; 122252000; 122054000; 121853000; 121650000; 121443000;
  121234000; 121022000; 120807000; 120589000; 120368000; 120144000; 119917000; 119686000; 119452000; 119215000; 118974000; 118730000; 118482000;
  118230000; 117975000; 117716000; 117452000; 117185000; 116914000; 116638000; 116358000; 116074000; 115785000; 115492000; 115193000; 114890000;
  114582000; 114269000; 113950000; 113626000; 113296000; 112961000; 112620000; 112273000; 111920000; 111561000; 111195000; 110822000; 110442000;
  110056000; 109662000; 109261000; 108852000; 108435000; 108009000; 107576000; 107133000; 106682000; 106221000; 105751000; 105270000; 104780000;
  104278000; 103766000; 103243000; 102707000; 102159000; 101599000; 101025000; 100438000; 99835800; 99219100; 98586900; 97938500; 97273200; 96590300;
  95888900; 95168200; 94427200; 93665000; 92880500; 92072500; 91239900; 90381100; 89494900; 88579500; 87633200; 86654200; 85640300; 84589300; 83498500;
  82365100; 81186000; 79957600; 78676000; 77336600; 75934300; 74463100; 72916400; 71286100; 69562900; 67735800; 65791400; 63713400; 61481900; 59071200;
  56448500; 53569900; 50375000; 46776300; 42638900; 37734900; 31618000; 23131000; 16762000; 2908000].
