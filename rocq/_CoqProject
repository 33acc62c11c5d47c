-Q theories Verif
theories/Expr.v
theories/Solver.v
theories/Bt.v
theories/Fork.v
theories/KMerge.v
theories/IndexPool.v
theories/HashMap.v
theories/Cht.v
theories/MemAlloc.v
theories/Config.v
theories/Structural.v
theories/Wt.v
theories/Simplify.v
theories/MultAdd.v
theories/BaseIndex.v
theories/Explore.v
theories/GhostMap.v
theories/GhostSpec.v
theories/GhostFacts.v
theories/GhostSim.v
theories/GhostHist.v
theories/GhostTrace.v
theories/GhostCons.v
theories/GhostReal.v
theories/GhostUse.v
theories/GhostArr.v
theories/GhostPres.v
theories/GhostMerge.v
theories/GhostMergeSim.v
theories/GhostFold.v
theories/GhostOld.v
theories/GhostDemo.v
theories/Heap.v
theories/HeapOwn.v
theories/Contracts.v
theories/ContractsMore.v
theories/Symbex.v
theories/SymbexFacts.v
theories/SymbexSearch.v
theories/SpecValues.v
theories/Table.v
theories/Firewall.v
theories/ExpSet.v
theories/Packet.v
theories/NatNF.v
theories/NatSpec.v
theories/Policer.v
theories/TimedSet.v
theories/Bridge.v
theories/Maglev.v
theories/Regs.v
theories/RegTable.v
theories/RegFacts.v
theories/RegActions.v
theories/RegStore.v
theories/RegLookup.v
theories/Pci.v
theories/Infer.v
theories/InferFacts.v
theories/Misc.v
theories/NetEnv.v
theories/EnvConfig.v
theories/Clock.v
theories/Props_Solver.v
theories/Props_Merge.v
theories/Props_Structs.v
theories/Props_Utils.v
theories/ObjMem.v
theories/Props_ObjMem.v
theories/SpecMaps.v
theories/Props_SpecMaps.v
theories/Shipped.v
theories/Props_Shipped.v
theories/DataEq.v
theories/Props_Data.v
theories/BridgeNet.v
theories/Props_BridgeNet.v
theories/Headers.v
theories/Props_Headers.v
theories/Stp.v
theories/Props_Stp.v
theories/PolicerExact.v
theories/Props_PolicerExact.v
theories/FirewallApart.v
theories/Props_FirewallApart.v
theories/NatServe.v
theories/Props_NatServe.v
theories/BridgeRoom.v
theories/Props_BridgeRoom.v
theories/MaglevMoves.v
theories/Props_MaglevMoves.v
theories/Props_Maps.v
theories/Props_Heap.v
theories/Props_Contracts.v
theories/Props_Symbex.v
theories/Props_Spec.v
theories/Props_NF.v
theories/Props_Device.v
theories/Props_Infer.v
theories/GhostExt.v
theories/Relax.v
theories/Props_Relax.v
theories/Props_Misc.v
theories/Props_Env.v
theories/TinyNF.v
theories/TinyNFFacts.v
theories/TinyNFWire.v
theories/Props_Driver.v
theories/Dhcp.v
theories/Props_Dhcp.v
theories/Router.v
theories/Props_Router.v
theories/SmallNF.v
theories/Props_SmallNF.v
theories/Ixgbe.v
theories/IxgbeFacts.v
theories/IxgbeSpec.v
theories/IxgbeInit.v
theories/IxgbeRun.v
theories/Props_Ixgbe.v
theories/IxgbeCard.v
theories/Props_IxgbeCard.v
theories/Props_IxgbeTime.v
theories/Props_IxgbeQueues.v
theories/MapLink.v
theories/Props_Link.v
theories/NfProg.v
theories/NfTable.v
theories/NfSafe.v
theories/NfLink.v
theories/Props_NfProg.v
theories/OsMem.v
theories/Props_OsMem.v
theories/Boot.v
theories/BootFacts.v
theories/BootRun.v
theories/Props_Boot.v
theories/Cli.v
theories/Names.v
theories/FullRun.v
theories/Props_Tool.v
