(** * The register and action tables

    Transcription of tool/klint/fullstack/spec_reg.py 30-1601 (registers and pci_regs, after
    validate_registers 13-28) and of spec_act.py 4-586 (actions, after validate_actions
    588-595).  Generated from those two files by a script, entry by entry in dictionary order. *)

From Coq Require Import NArith List String.
From Verif Require Import Expr Solver Regs.
Import ListNotations.
Open Scope N_scope.
Open Scope string_scope.

(** spec_reg.py 30-1433. *)
Definition registers : list reg := [
  (* 34-54 *)
  mkReg "CTRL" [(0, 0, 0)] 32 RW
    [mkF "PCIe Master Disable" 2 2 (Some 0) RW;
     mkF "LRST" 3 3 (Some 0) RW;
     mkF "RST" 26 26 (Some 0) RW];
  (* 56-84 *)
  mkReg "STATUS" [(8, 0, 0)] 32 RO
    [mkF "LAN ID" 2 3 (Some 0) RO;
     mkF "LinkUp" 7 7 (Some 0) RW;
     mkF "Num VFs" 26 26 (Some 0) RO;
     mkF "IOV Active" 18 18 (Some 0) RO;
     mkF "PCIe Master Enable Status" 19 19 (Some 1) RO];
  (* 86-100 *)
  mkReg "EIMC_0" [(2184, 0, 0)] 32 RW
    [mkF "Interrupt Mask" 0 30 (Some 0) RW];
  (* 102-116 *)
  mkReg "EIMC_1" [(2736, 0, 0)] 32 RW
    [mkF "Interrupt Mask" 0 31 (Some 0) RW];
  (* 118-132 *)
  mkReg "EIMC_2" [(2740, 0, 0)] 32 RW
    [mkF "Interrupt Mask" 0 31 (Some 0) RW];
  (* 134-153 *)
  mkReg "FCRTH" [(12896, 4, 7)] 32 RW
    [mkF "RTH" 5 18 (Some 0) RW;
     mkF "FCEN" 31 31 (Some 0) RW];
  (* 155-200 *)
  mkReg "FWSM" [(65864, 0, 0)] 32 RW
    [mkF "FWSMBI" 0 0 (Some 0) RW;
     mkF "FW_mode" 1 3 (Some 0) RW;
     mkF "EEP_reload_ind" 6 6 (Some 0) RW;
     mkF "FW_Val_bit" 15 15 (Some 0) RW;
     mkF "Reset_cnt" 16 18 (Some 0) RW;
     mkF "Ext_err_ind" 19 24 (Some 0) RW;
     mkF "PCIe_config_err_ind" 25 25 (Some 0) RW;
     mkF "PHY_SERDES0_config_err_ind" 26 26 (Some 0) RW;
     mkF "PHY_SERDES1_config_err_ind" 27 27 (Some 0) RW];
  (* 202-213 *)
  mkReg "RXPBSIZE" [(15360, 4, 7)] 32 RW
    [mkF "SIZE" 10 19 (Some 512) RW];
  (* 215-305 *)
  mkReg "EEC" [(65552, 0, 0)] 32 RW
    [mkF "EE_SK" 0 0 (Some 0) RW;
     mkF "EE_CS" 1 1 (Some 0) RW;
     mkF "EE_DI" 2 2 (Some 0) RW;
     mkF "EE_DO" 3 3 None RO;
     mkF "FWE" 4 4 (Some 1) RW;
     mkF "EE_REQ" 6 6 (Some 0) RW;
     mkF "EE_GNT" 7 7 (Some 0) RO;
     mkF "EE_PRES" 8 8 None RO;
     mkF "Auto_RD" 9 9 (Some 0) RW;
     mkF "EE_Size" 11 14 (Some 2) RO;
     mkF "PCI_ANA_done" 15 15 (Some 0) RO;
     mkF "PCI_Core_done" 16 16 (Some 0) RO;
     mkF "PCI_general_done" 17 17 (Some 0) RO;
     mkF "PCI_FUNC_DONE" 18 18 (Some 0) RO;
     mkF "CORE_DONE" 19 19 (Some 0) RO;
     mkF "CORE_CSR_DONE" 20 20 (Some 0) RO;
     mkF "MAC_DONE" 21 21 (Some 0) RO];
  (* 307-338 *)
  mkReg "RDRXCTL" [(12032, 0, 0)] 32 RW
    [mkF "CRCStrip" 1 1 (Some 0) RW;
     mkF "DMAIDONE" 3 3 (Some 0) RO;
     mkF "RSCFRSTSIZE" 17 21 (Some 8) RW;
     mkF "RSCACKC" 25 25 (Some 0) RW;
     mkF "FCOE_WRFIX" 26 26 (Some 0) RW];
  (* 344-355 *)
  mkReg "PFUTA" [(62464, 4, 127)] 32 RW
    [mkF "Bit Vector" 0 31 None RW];
  (* 357-373 *)
  mkReg "PFVLVF" [(61696, 4, 63)] 32 RW
    [mkF "VLAN_Id" 0 11 None RW;
     mkF "VI_En" 31 31 None RW];
  (* 375-388 *)
  mkReg "MPSAR" [(42496, 4, 255)] 32 RW
    [mkF "POOL_ENA" 0 31 None RW];
  (* 390-403 *)
  mkReg "PFVLVFB" [(61952, 4, 127)] 32 RW
    [mkF "POOL_ENA" 0 31 None RW];
  (* 405-418 *)
  mkReg "MTA" [(20992, 4, 127)] 32 RW
    [mkF "Bit Vector" 0 31 None RW];
  (* 420-443 *)
  mkReg "MFLCN" [(17044, 0, 0)] 32 RW
    [mkF "PMCF" 0 0 (Some 0) RW;
     mkF "DPF" 1 1 (Some 0) RW;
     mkF "RPFCE" 2 2 (Some 0) RW;
     mkF "RFCE" 3 3 (Some 0) RW];
  (* 445-456 *)
  mkReg "FCCFG" [(15616, 0, 0)] 32 RW
    [mkF "TFCE" 3 4 (Some 0) RW];
  (* 458-469 *)
  mkReg "RTTDQSEL" [(18692, 0, 0)] 32 RW
    [mkF "TXDQ_IDX" 0 6 (Some 0) RW];
  (* 471-482 *)
  mkReg "RTTDT1C" [(18696, 0, 0)] 32 RW
    [mkF "CRQ" 0 13 None RW];
  (* 484-518 *)
  mkReg "FTQF" [(58880, 4, 127)] 32 RW
    [mkF "Protocol" 0 1 None RW;
     mkF "Priority" 2 4 None RW;
     mkF "Pool" 8 13 None RW;
     mkF "Mask" 25 29 None RW;
     mkF "Pool Mast" 30 30 None RW;
     mkF "Queue Enable" 31 31 None RW];
  (* 520-560 *)
  mkReg "RTTDCS" [(18688, 0, 0)] 32 RW
    [mkF "TDPAC" 0 0 (Some 0) RW;
     mkF "VMPAC" 1 1 (Some 0) RW;
     mkF "TDRM" 4 4 (Some 0) RW;
     mkF "ARBDIS" 6 6 (Some 0) RW;
     mkF "LTTDESC" 17 19 (Some 0) RO;
     mkF "BDPM" 22 22 (Some 1) RW;
     mkF "BPBFSM" 23 23 (Some 1) RW;
     mkF "SPEED_CHG" 31 31 (Some 0) RW];
  (* 561-572 *)
  mkReg "TXPBSIZE" [(52224, 4, 7)] 32 RW
    [mkF "SIZE" 10 19 (Some 160) RW];
  (* 574-585 *)
  mkReg "DTXMXSZRQ" [(33024, 0, 0)] 32 RW
    [mkF "Max_bytes_num_req" 0 11 (Some 16) RW];
  (* 587-598 *)
  mkReg "TXPBTHRESH" [(18768, 4, 7)] 32 RW
    [mkF "THRESH" 0 9 None RW];
  (* 600-620 *)
  mkReg "MTQC" [(33056, 0, 0)] 32 RW
    [mkF "RT_Ena" 0 0 (Some 0) RW;
     mkF "VT_Ena" 1 1 (Some 0) RW;
     mkF "NUM_TC_OR_Q" 2 3 (Some 0) RW];
  (* 622-668 *)
  mkReg "HLREG0" [(16960, 0, 0)] 32 RW
    [mkF "TXCRCEN" 0 0 (Some 1) RW;
     mkF "RXCRCSTRP" 1 1 (Some 1) RW;
     mkF "JUMBOEN" 2 2 (Some 0) RW;
     mkF "Reserved" 3 9 (Some 1) RW;
     mkF "TXPADEN" 10 10 (Some 1) RW;
     mkF "LPBK" 15 15 (Some 0) RW;
     mkF "MDCSPD" 16 16 (Some 1) RW;
     mkF "CONTMDC" 17 17 (Some 0) RW;
     mkF "PREPEND" 20 23 (Some 0) RW];
  (* 670-689 *)
  mkReg "GRC_EXT" [(69712, 0, 0)] 32 RW
    [mkF "VT_Mode" 0 1 (Some 0) RW;
     mkF "APBACD" 4 4 (Some 0) RW;
     mkF "Buffers_Clear_Func" 30 30 (Some 0) RW];
  (* 691-769 *)
  mkReg "RXMEMWRAP" [(12688, 0, 0)] 32 RO
    [mkF "TC0Wrap" 0 2 (Some 0) RO;
     mkF "TC0Empty" 3 3 (Some 1) RO;
     mkF "T10Wrap" 4 6 (Some 0) RO;
     mkF "TC1Empty" 7 7 (Some 1) RO;
     mkF "TC2Wrap" 8 10 (Some 0) RO;
     mkF "TC2Empty" 11 11 (Some 1) RO;
     mkF "TC3Wrap" 12 14 (Some 0) RO;
     mkF "TC3Empty" 15 15 (Some 1) RO;
     mkF "TC4Wrap" 16 18 (Some 0) RO;
     mkF "TC4Empty" 19 19 (Some 1) RO;
     mkF "TC5Wrap" 20 22 (Some 0) RO;
     mkF "TC5Empty" 23 23 (Some 1) RO;
     mkF "TC6Wrap" 24 26 (Some 0) RO;
     mkF "TC6Empty" 27 27 (Some 1) RO;
     mkF "TC7Wrap" 28 30 (Some 0) RO;
     mkF "TC7Empty" 31 31 (Some 1) RO];
  (* 774-792 *)
  mkReg "TDBAL" [(24576, 64, 127)] 32 RW
    [mkF "0" 0 6 (Some 0) IW;
     mkF "TDBAL" 7 31 None RW];
  (* 794-806 *)
  mkReg "TDBAH" [(24580, 64, 127)] 32 RW
    [mkF "TDBAH" 0 31 None RW];
  (* 808-824 *)
  mkReg "TDLEN" [(24584, 64, 127)] 32 RW
    [mkF "LEN" 0 19 (Some 0) RW];
  (* 826-867 *)
  mkReg "TXDCTL" [(24616, 64, 127)] 32 RW
    [mkF "PTHRESH" 0 6 (Some 0) RW;
     mkF "HTHRESH" 8 14 (Some 0) RW;
     mkF "WTHRESH" 16 22 (Some 0) RW;
     mkF "ENABLE" 25 25 (Some 0) RW;
     mkF "SWFLSH" 26 26 (Some 0) RW];
  (* 869-887 *)
  mkReg "TDWBAL" [(24632, 64, 127)] 32 RW
    [mkF "Head_WB_En" 0 0 (Some 0) RW;
     mkF "HeadWB_Low" 2 31 (Some 0) RW];
  (* 889-900 *)
  mkReg "TDWBAH" [(24636, 64, 127)] 32 RW
    [mkF "HeadWB_High" 0 31 (Some 0) RW];
  (* 902-933 *)
  mkReg "DCA_TXCTRL" [(24588, 64, 127)] 32 RW
    [mkF "Tx Descriptor DCA EN" 5 5 (Some 0) RW;
     mkF "TXdescRDROEn" 9 9 (Some 1) RW;
     mkF "TXdescWBROen" 11 11 (Some 1) RW;
     mkF "TXDataReadROEn" 13 13 (Some 1) RW;
     mkF "CPUID" 24 31 (Some 0) RW];
  (* 935-958 *)
  mkReg "DMATXCTL" [(19072, 0, 0)] 32 RW
    [mkF "TE" 0 0 (Some 0) RW;
     mkF "GDV" 3 3 (Some 0) RW;
     mkF "VT" 16 31 (Some 33024) RW];
  (* 963-980 *)
  mkReg "RDBAL" [(4096, 64, 63); (53248, 64, 127)] 32 RW
    [mkF "0" 0 6 (Some 0) IW;
     mkF "RDBAL" 7 31 None RW];
  (* 982-993 *)
  mkReg "RDBAH" [(4100, 64, 63); (53252, 64, 127)] 32 RW
    [mkF "RDBAH" 0 31 None RW];
  (* 995-1010 *)
  mkReg "RDLEN" [(4104, 64, 63); (53256, 64, 127)] 32 RW
    [mkF "LEN" 0 19 (Some 0) RW];
  (* 1014-1025 *)
  mkReg "RDT" [(4120, 64, 63); (53272, 64, 127)] 32 RW
    [mkF "RDT" 0 15 (Some 0) RW];
  (* 1027-1044 *)
  mkReg "RXDCTL" [(4136, 64, 63); (53288, 64, 127)] 32 RW
    [mkF "ENABLE" 25 25 (Some 0) RW;
     mkF "VME" 30 30 (Some 0) RW];
  (* 1046-1092 *)
  mkReg "SRRCTL" [(4116, 64, 63); (53268, 64, 127)] 32 RW
    [mkF "BSIZEPACKET" 0 4 (Some 2) RW;
     mkF "BSIZEHEADER" 8 13 (Some 4) RW;
     mkF "RDMTS" 22 24 (Some 0) RW;
     mkF "DESCTYPE" 25 27 (Some 0) RW;
     mkF "Drop_En" 28 28 (Some 0) RW];
  (* 1096-1131 *)
  mkReg "PSRTYPE" [(59904, 4, 63)] 32 RW
    [mkF "PRS_type1" 1 1 None RW;
     mkF "PRS_type4" 4 4 None RW;
     mkF "PRS_type5" 5 5 None RW;
     mkF "PRS_type8" 8 8 None RW;
     mkF "PRS_type9" 9 9 None RW;
     mkF "PRS_type12" 12 12 None RW;
     mkF "RQPL" 29 31 None RW];
  (* 1133-1152 *)
  mkReg "RSCCTL" [(4140, 64, 63)] 32 RW
    [mkF "RSCEN" 0 0 (Some 0) RW;
     mkF "MAXDESC" 2 3 (Some 0) RW];
  (* 1155-1206 *)
  mkReg "DCA_RXCTRL" [(4108, 64, 63); (53260, 64, 127)] 32 RW
    [mkF "Rx Descriptor DCA EN" 5 5 (Some 0) RW;
     mkF "Rx Header DCA EN" 6 6 (Some 0) RW;
     mkF "Rx Payload DCA EN" 7 7 (Some 0) RW;
     mkF "RXdescReadROEn" 9 9 (Some 1) RW;
     mkF "RXdescWBROen" 11 11 (Some 0) RO;
     mkF "Special_Reserved" 12 12 (Some 1) RW;
     mkF "RXdataWriteROEn" 13 13 (Some 1) RW;
     mkF "RxRepHeaderROEn" 15 15 (Some 1) RW;
     mkF "CPUID" 24 31 (Some 0) RW];
  (* 1208-1222 *)
  mkReg "SECRXCTRL" [(36096, 0, 0)] 32 RW
    [mkF "SECRX_DIS" 0 0 (Some 1) RW;
     mkF "RX_DIS" 1 1 (Some 0) RW];
  (* 1224-1244 *)
  mkReg "SECRXSTAT" [(36100, 0, 0)] 32 RO
    [mkF "SECRX_RDY" 0 0 (Some 0) RO;
     mkF "SECRX_OFF_DIS" 1 1 (Some 0) RO;
     mkF "ECC_RXERR" 2 2 (Some 0) RO];
  (* 1246-1286 *)
  mkReg "CTRL_EXT" [(24, 0, 0)] 32 RW
    [mkF "PFRSTD (SC)" 14 14 (Some 0) RW;
     mkF "NS_DIS" 16 16 (Some 0) RW;
     mkF "RO_DIS" 17 17 (Some 0) RW;
     mkF "Extended VLAN" 26 26 (Some 0) RW;
     mkF "DRV_LOAD" 28 28 (Some 0) RW];
  (* 1291-1307 *)
  mkReg "RXCTRL" [(12288, 0, 0)] 32 RW
    [mkF "RXEN" 0 0 (Some 0) RW;
     mkF "Reserved" 1 31 (Some 0) RO];
  (* 1309-1333 *)
  mkReg "FCTRL" [(20608, 0, 0)] 32 RW
    [mkF "SBP" 1 1 (Some 0) RW;
     mkF "MPE" 8 8 (Some 0) RW;
     mkF "UPE" 9 9 (Some 0) RW;
     mkF "BAM" 10 10 (Some 0) RW];
  (* 1335-1377 *)
  mkReg "MANC" [(22560, 0, 0)] 32 RW
    [mkF "RCV_TCO_EN" 17 17 (Some 0) RW;
     mkF "RCV_ALL" 19 19 (Some 0) RW;
     mkF "MCST_PASS_L2" 20 20 (Some 0) RW;
     mkF "EN_MNG2HOST" 21 21 (Some 0) RW;
     mkF "Bypass VLAN" 22 22 (Some 0) RW;
     mkF "EN_XSUM_FILTER" 23 23 (Some 0) RW;
     mkF "EN_IPv4_FILTER" 24 24 (Some 0) RW;
     mkF "FIXED_NET_TYPE" 25 25 (Some 0) RW;
     mkF "NET_TYPE" 26 26 (Some 0) RW];
  (* 1379-1390 *)
  mkReg "RAL" [(41472, 8, 127)] 32 RW
    [mkF "RAL" 0 31 (Some 0) RW];
  (* 1391-1413 *)
  mkReg "RAH" [(41476, 8, 127)] 32 RW
    [mkF "RAH" 0 15 (Some 0) RW;
     mkF "Reserved" 16 30 (Some 0) RO;
     mkF "AV" 31 31 (Some 0) RW];
  (* 1415-1432 *)
  mkReg "TDT" [(24600, 64, 127)] 32 RW
    [mkF "TDT" 0 15 (Some 0) RW;
     mkF "Reserved" 16 31 (Some 0) RO]].

(** spec_reg.py 1435-1601. *)
Definition pci_regs : list reg := [
  (* 1437-1455 *)
  mkReg "ID" [(0, 0, 0)] 32 RO
    [mkF "Vendor_ID" 0 15 None RO;
     mkF "Device_ID" 16 31 None RO];
  (* 1456-1487 *)
  mkReg "COMMAND" [(4, 0, 0)] 32 RW
    [mkF "IO_Access_En" 0 0 (Some 0) RW;
     mkF "Mem_Access_En" 1 1 (Some 0) RW;
     mkF "BME" 2 2 (Some 0) RW;
     mkF "Parity_Err" 6 6 (Some 0) RW;
     mkF "SERR_En" 8 8 (Some 0) RW;
     mkF "Interrupt_Dis" 10 10 (Some 1) RW];
  (* 1489-1500 *)
  mkReg "BAR0" [(16, 0, 0)] 32 RW
    [mkF "Low" 0 31 None RW];
  (* 1501-1512 *)
  mkReg "BAR1" [(20, 0, 0)] 32 RW
    [mkF "High" 0 31 None RW];
  (* 1514-1566 *)
  mkReg "PMCSR" [(68, 0, 0)] 32 RW
    [mkF "PowerState" 0 1 (Some 0) RW;
     mkF "No_Soft_Reset" 3 3 (Some 0) RO;
     mkF "PME_En" 8 8 (Some 0) RWS;
     mkF "Data_Select" 9 12 (Some 0) RW;
     mkF "Data_Scale" 13 14 (Some 1) RW;
     mkF "PME_Status" 15 15 (Some 0) RW1CS;
     mkF "PMCSR_BSE" 16 23 (Some 0) RW;
     mkF "Data_Register" 24 31 (Some 0) RW];
  (* 1568-1600 *)
  mkReg "DEVICE_STATUS" [(170, 0, 0)] 16 RW1C
    [mkF "Correctable" 0 0 (Some 0) RW1C;
     mkF "Non-Fatal" 1 1 (Some 0) RW1C;
     mkF "Fatal" 2 2 (Some 0) RW1C;
     mkF "Unsupported_Request" 3 3 (Some 0) RW1C;
     mkF "Aux_Power" 4 4 (Some 0) RO;
     mkF "Transaction_Pending" 5 5 (Some 0) RO]].

(** The tests on written values in spec_act.py.  [v_chained] is
    [lambda bv: bv == a | bv == b | ...] (lines 106, 140): [|] binds more tightly than [==],
    so this is a chained comparison, which asks for the truth value of an expression and
    raises. *)
Definition v_any (_ : bv) : res bexp := Ok BTrue.
Definition v_is (c : N) (e : bv) : res bexp := Ok (BEq e (BVV (width e) c)).
Definition v_one_of (a b : N) (e : bv) : res bexp := Ok (BOr (BEq e (BVV (width e) a)) (BEq e (BVV (width e) b))).
Definition v_1_to_16 (e : bv) : res bexp := Ok (BAnd (BUle (BVV (width e) 1) e) (BUle e (BVV (width e) 16))).
Definition v_ring_length (e : bv) : res bexp :=
  do a <- slice e 7 0 ; do b <- slice e 19 18 ; Ok (BAnd (BEq a (BVV 8 0)) (BEq b (BVV 2 0))).
Definition v_aligned4 (e : bv) : res bexp := do a <- slice e 1 0 ; Ok (BEq a (BVV 2 0)).
Definition v_chained (_ : bv) : res bexp := Err.

(** spec_act.py 4-586. *)
Definition actions : list action := [
  (* 546-550 *)
  mkAct "Program EIMC_0 after global reset" None
    (AWrite "EIMC_0" "Interrupt Mask" (v_is 2147483647)) None;
  (* 551-555 *)
  mkAct "Program EIMC_1 after global reset" None
    (AWrite "EIMC_1" "Interrupt Mask" (v_is 4294967295)) None;
  (* 556-560 *)
  mkAct "Program EIMC_2 after global reset" None
    (AWrite "EIMC_2" "Interrupt Mask" (v_is 4294967295)) None;
  (* 534-538 *)
  mkAct "Program FCRTH" None
    (AWrite "FCRTH" "RTH" v_any) None;
  (* 511-521 *)
  mkAct "Initiate Software Reset" None
    (ASet "CTRL" "RST") (Some (EAnd (EClear "CTRL" "RST") (EAnd (ESet "EEC" "Auto_RD") (ESet "RDRXCTL" "DMAIDONE"))));
  (* 456-460 *)
  mkAct "Disable Rx Queues" None
    (AClear "RXDCTL" "ENABLE") (Some (EClear "RXDCTL" "ENABLE"));
  (* 462-475 *)
  mkAct "Disable PCIe Master" (Some (CNot (CReg "RXDCTL" "ENABLE")))
    (ASet "CTRL" "PCIe Master Disable") (Some (EAnd (EClear "STATUS" "PCIe Master Enable Status") (EClear "DEVICE_STATUS" "Transaction_Pending")));
  (* 478-484 *)
  mkAct "Inhibit data transmission I" (Some (CAnd (CReg "STATUS" "PCIe Master Enable Status") (CNot (CReg "DEVICE_STATUS" "Transaction_Pending"))))
    (ASet "HLREG0" "LPBK") None;
  (* 485-491 *)
  mkAct "Inhibit data transmission II" (Some (CAnd (CReg "STATUS" "PCIe Master Enable Status") (CNot (CReg "DEVICE_STATUS" "Transaction_Pending"))))
    (AClear "RXCTRL" "RXEN") None;
  (* 492-498 *)
  mkAct "Flush Internal Buffers" (Some (CAnd (CReg "HLREG0" "LPBK") (CNot (CReg "RXCTRL" "RXEN"))))
    (ASet "GRC_EXT" "Buffers_Clear_Func") None;
  (* 499-501 *)
  mkAct "Clear GRC_EXT.Buffers_Clear_Func" None
    (AClear "GRC_EXT" "Buffers_Clear_Func") None;
  (* 502-504 *)
  mkAct "Clear HLREG0.LPBK" None
    (AClear "HLREG0" "LPBK") None;
  (* 410-412 *)
  mkAct "Set RTTDCS.ARBDIS" None
    (ASet "RTTDCS" "ARBDIS") None;
  (* 416-420 *)
  mkAct "Program TXPBSIZE" None
    (AWrite "TXPBSIZE" "SIZE" (v_is 0)) None;
  (* 421-425 *)
  mkAct "Program TXPBTHRESH" None
    (AWrite "TXPBTHRESH" "THRESH" v_any) None;
  (* 426-430 *)
  mkAct "Program DTXMXSZRQ" None
    (AWrite "DTXMXSZRQ" "Max_bytes_num_req" (v_is 4095)) None;
  (* 432-434 *)
  mkAct "Clear RTTDCS.ARBDIS" None
    (AClear "RTTDCS" "ARBDIS") None;
  (* 264-270 *)
  mkAct "Enable transmit path" None
    (ASet "DMATXCTL" "TE") None;
  (* 446-448 *)
  mkAct "Disable transmit queue" None
    (AClear "TXDCTL" "ENABLE") None;
  (* 300-306 *)
  mkAct "Program PFUTA" None
    (AWrite "PFUTA" "Bit Vector" (v_is 0)) None;
  (* 310-312 *)
  mkAct "Program VLAN Pool Filter VI_En." None
    (AClear "PFVLVF" "VI_En") None;
  (* 313-317 *)
  mkAct "Program VLAN Pool Filter VLAN_Id" None
    (AWrite "PFVLVF" "VLAN_Id" v_any) None;
  (* 319-323 *)
  mkAct "Program  MAC Pool Select Array" None
    (AWrite "MPSAR" "POOL_ENA" v_any) None;
  (* 325-329 *)
  mkAct "Program VLAN Pool Filter Bitmap." None
    (AWrite "PFVLVFB" "POOL_ENA" v_any) None;
  (* 335-339 *)
  mkAct "Program Multicast Table Array." None
    (AWrite "MTA" "Bit Vector" (v_one_of 0 1)) None;
  (* 349-351 *)
  mkAct "Program FTQF" None
    (AClear "FTQF" "Queue Enable") None;
  (* 352-354 *)
  mkAct "Program RDRXCTL I" None
    (ASet "RDRXCTL" "CRCStrip") None;
  (* 355-361 *)
  mkAct "Program RDRXCTL II" None
    (AWrite "RDRXCTL" "RSCFRSTSIZE" (v_is 0)) None;
  (* 362-364 *)
  mkAct "Program RDRXCTL III" None
    (ASet "RDRXCTL" "RSCACKC") None;
  (* 365-367 *)
  mkAct "Program RDRXCTL IV" None
    (ASet "RDRXCTL" "FCOE_WRFIX") None;
  (* 370-375 *)
  mkAct "Program RXPBSIZE" None
    (AWrite "RXPBSIZE" "SIZE" (v_one_of 512 0)) None;
  (* 376-378 *)
  mkAct "Program MFLCN.RFCE" None
    (ASet "MFLCN" "RFCE") None;
  (* 380-384 *)
  mkAct "Program FCCFG.TFCE" None
    (AWrite "FCCFG" "TFCE" (v_is 1)) None;
  (* 387-391 *)
  mkAct "Program RTTDQSEL.TXDQ_IDX" None
    (AWrite "RTTDQSEL" "TXDQ_IDX" v_any) None;
  (* 392-396 *)
  mkAct "Program RTTDT1C.CRQ" None
    (AWrite "RTTDT1C" "CRQ" v_any) None;
  (* 281-283 *)
  mkAct "Enable Bus Master" None
    (ASet "COMMAND" "BME") None;
  (* 284-286 *)
  mkAct "Enable Memory Reads" None
    (ASet "COMMAND" "Mem_Access_En") None;
  (* 287-289 *)
  mkAct "Disable Interrupts" None
    (ASet "COMMAND" "Interrupt_Dis") None;
  (* 8-11 *)
  mkAct "Disable Receive" (Some (CReg "RXCTRL" "RXEN"))
    (AClear "RXCTRL" "RXEN") None;
  (* 12-15 *)
  mkAct "Enable Receive" (Some (CNot (CReg "RXCTRL" "RXEN")))
    (ASet "RXCTRL" "RXEN") None;
  (* 20-23 *)
  mkAct "Set Unicast Filtering" (Some (CNot (CReg "RXCTRL" "RXEN")))
    (ASet "FCTRL" "UPE") None;
  (* 24-27 *)
  mkAct "Set Multicast Filtering" (Some (CNot (CReg "RXCTRL" "RXEN")))
    (ASet "FCTRL" "MPE") None;
  (* 28-31 *)
  mkAct "Set Broadcast Filtering" (Some (CNot (CReg "RXCTRL" "RXEN")))
    (ASet "FCTRL" "BAM") None;
  (* 45-53 *)
  mkAct "Program RDBAH" None
    (AWrite "RDBAH" "RDBAH" v_any) None;
  (* 54-60 *)
  mkAct "Program RDBAL" None
    (AWrite "RDBAL" "RDBAL" v_any) None;
  (* 63-72 *)
  mkAct "Program RDLEN" None
    (AWrite "RDLEN" "LEN" v_ring_length) None;
  (* 75-84 *)
  mkAct "Program Receive Buffer Size for Packet Buffer." None
    (AWrite "SRRCTL" "BSIZEPACKET" v_1_to_16) None;
  (* 85-96 *)
  mkAct "Program Receive Buffer Size for Header Buffer." None
    (AWrite "SRRCTL" "BSIZEHEADER" v_1_to_16) None;
  (* 97-101 *)
  mkAct "Program Receive Descriptor Minimum Threshold Size." None
    (AWrite "SRRCTL" "RDMTS" v_any) None;
  (* 102-108 *)
  mkAct "Program Descriptor Type." None
    (AWrite "SRRCTL" "DESCTYPE" v_chained) None;
  (* 109-111 *)
  mkAct "Disable Drop" None
    (AClear "SRRCTL" "Drop_En") None;
  (* 112-114 *)
  mkAct "Enable Drop" None
    (ASet "SRRCTL" "Drop_En") None;
  (* 117-119 *)
  mkAct "Enable Split NFS header" None
    (ASet "PRSTYPE" "PSR_type1") None;
  (* 120-122 *)
  mkAct "Enable Split TCP header" None
    (ASet "PRSTYPE" "PSR_type4") None;
  (* 123-125 *)
  mkAct "Enable Split UDP header" None
    (ASet "PRSTYPE" "PSR_type5") None;
  (* 126-128 *)
  mkAct "Enable Split IPv4 header" None
    (ASet "PRSTYPE" "PSR_type8") None;
  (* 129-131 *)
  mkAct "Enable Split IPv6 header" None
    (ASet "PRSTYPE" "PSR_type9") None;
  (* 132-134 *)
  mkAct "Enable Split L2 header" None
    (ASet "PRSTYPE" "PSR_type12") None;
  (* 135-142 *)
  mkAct "Set RSS redirection bits" None
    (AWrite "PRSTYPE" "RQPL" v_chained) None;
  (* 145-147 *)
  mkAct "Enable RSC" None
    (ASet "RSCCTL" "RSCEN") None;
  (* 150-155 *)
  mkAct "Enable Receive Queue Enable" None
    (ASet "RXDCTL" "ENABLE") (Some (ESet "RXDCTL" "ENABLE"));
  (* 158-167 *)
  mkAct "Bump Receive Tail Pointer" (Some (CReg "RXDCTL" "ENABLE"))
    (AWrite "RDT" "RDT" v_any) None;
  (* 172-178 *)
  mkAct "Halt the receive data path" None
    (ASet "SECRXCTRL" "RX_DIS") (Some (ESet "SECRXSTAT" "SECRX_RDY"));
  (* 180-183 *)
  mkAct "Set RXCTRL.RXEN" (Some (CReg "SECRXSTAT" "SECRX_RDY"))
    (ASet "RXCTRL" "RXEN") None;
  (* 185-188 *)
  mkAct "Enable the receive data path" (Some (CReg "RXCTRL" "RXEN"))
    (AClear "SECRXCTRL" "RX_DIS") None;
  (* 191-194 *)
  mkAct "Set No Snoop Disable" None
    (ASet "CTRL_EXT" "NS_DIS") None;
  (* 195-197 *)
  mkAct "Clear bit 12 of DCA_RXCTRL" None
    (AClear "DCA_RXCTRL" "Special_Reserved") None;
  (* 201-205 *)
  mkAct "Program TDBAL" None
    (AWrite "TDBAL" "TDBAL" v_any) None;
  (* 206-210 *)
  mkAct "Program TDBAH" None
    (AWrite "TDBAH" "TDBAH" v_any) None;
  (* 213-220 *)
  mkAct "Program TDLEN" None
    (AWrite "TDLEN" "LEN" v_ring_length) None;
  (* 223-229 *)
  mkAct "Program PTHRESH" None
    (AWrite "TXDCTL" "PTHRESH" v_any) None;
  (* 230-236 *)
  mkAct "Program HTHRESH" None
    (AWrite "TXDCTL" "HTHRESH" v_any) None;
  (* 246-252 *)
  mkAct "Program TDWBAL" None
    (AWrite "TDWBAL" "HeadWB_Low" v_aligned4) None;
  (* 243-245 *)
  mkAct "Set Head Write-Back Enable" None
    (ASet "TDWBAL" "Head_WB_En") None;
  (* 253-257 *)
  mkAct "Program TDWBAH" None
    (AWrite "TDWBAH" "HeadWB_High" v_any) None;
  (* 258-260 *)
  mkAct "Disable relaxed ordering of head pointer" None
    (AClear "DCA_TXCTRL" "TXdescWBROen") None;
  (* 272-276 *)
  mkAct "Enable transmit queue" None
    (ASet "TXDCTL" "ENABLE") (Some (ESet "TXDCTL" "ENABLE"));
  (* 572-581 *)
  mkAct "Bump Transmit Tail Pointer" (Some (CReg "TXDCTL" "ENABLE"))
    (AWrite "TDT" "TDT" v_any) None].
