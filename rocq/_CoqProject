-Q theories Verif
theories/Common/Angle.v
theories/Common/Cplx.v
theories/Common/Dft.v
theories/Common/Erf.v
theories/Common/ListX.v
theories/Common/Py.v
theories/Common/SumX.v
theories/Model/BitErr.v
theories/Model/Classes.v
theories/Model/Constellation.v
theories/Model/Dealer.v
theories/Model/Decision.v
theories/Model/EqInit.v
theories/Model/Equaliser.v
theories/Model/Estimate.v
theories/Model/Filters.v
theories/Model/Fractions.v
theories/Model/Frontend.v
theories/Model/Gray.v
theories/Model/Helpers.v
theories/Model/Hybrid.v
theories/Model/Impair.v
theories/Model/Lfsr.v
theories/Model/Lut.v
theories/Model/MatIo.v
theories/Model/MatSignal.v
theories/Model/Norm.v
theories/Model/NumbaEq.v
theories/Model/Phase.v
theories/Model/PhaseAf.v
theories/Model/PilotCpe.v
theories/Model/PilotRx.v
theories/Model/Pilots.v
theories/Model/Pmd.v
theories/Model/Prbs.v
theories/Model/Pulses.v
theories/Model/Quality.v
theories/Model/Rates.v
theories/Model/Resample.v
theories/Model/SignalFrom.v
theories/Model/SignalObj.v
theories/Model/SignalRates.v
theories/Model/SimTx.v
theories/Model/Sync.v
theories/Model/TheorySim.v
theories/Model/Transmitter.v
theories/Model/Windows.v
theories/Model/Worker.v
theories/Proofs/AdjustP.v
theories/Proofs/BertP.v
theories/Proofs/BertQ.v
theories/Proofs/BertR.v
theories/Proofs/BitErrP.v
theories/Proofs/C01P.v
theories/Proofs/C02P.v
theories/Proofs/ConstP.v
theories/Proofs/CorrP.v
theories/Proofs/CpeP.v
theories/Proofs/CpeQ.v
theories/Proofs/CpeR.v
theories/Proofs/DealerP.v
theories/Proofs/DecisionP.v
theories/Proofs/EqInitP.v
theories/Proofs/EqualP.v
theories/Proofs/EqualQ.v
theories/Proofs/EqualR.v
theories/Proofs/EqualS.v
theories/Proofs/EqualT.v
theories/Proofs/EqualU.v
theories/Proofs/EqualV.v
theories/Proofs/EstimateP.v
theories/Proofs/EstimateX.v
theories/Proofs/FiltersP.v
theories/Proofs/FiltersQ.v
theories/Proofs/FiltersR.v
theories/Proofs/FiltersS.v
theories/Proofs/FractionsP.v
theories/Proofs/FreqP.v
theories/Proofs/FrontendP.v
theories/Proofs/GrayP.v
theories/Proofs/HybridP.v
theories/Proofs/HybridQ.v
theories/Proofs/HybridR.v
theories/Proofs/ImpairP.v
theories/Proofs/ImpairQ.v
theories/Proofs/ImpairR.v
theories/Proofs/ImpairS.v
theories/Proofs/ImpairT.v
theories/Proofs/LfsrP.v
theories/Proofs/LfsrQ.v
theories/Proofs/LinkNoiseP.v
theories/Proofs/LinkP.v
theories/Proofs/LutP.v
theories/Proofs/MapP.v
theories/Proofs/MatP.v
theories/Proofs/MatSignalP.v
theories/Proofs/NormP.v
theories/Proofs/NumbaP.v
theories/Proofs/NumbaQ.v
theories/Proofs/PartitionP.v
theories/Proofs/PhaseAfP.v
theories/Proofs/PhaseP.v
theories/Proofs/PhaseQ.v
theories/Proofs/PhaseR.v
theories/Proofs/PhaseS.v
theories/Proofs/PhaseT.v
theories/Proofs/PhaseV.v
theories/Proofs/PilotP.v
theories/Proofs/PilotQ.v
theories/Proofs/PilotRxP.v
theories/Proofs/PilotRxQ.v
theories/Proofs/PilotRxR.v
theories/Proofs/PilotRxS.v
theories/Proofs/PilotRxT.v
theories/Proofs/PilotRxU.v
theories/Proofs/PmdP.v
theories/Proofs/PrbsP.v
theories/Proofs/PrbsQ.v
theories/Proofs/PskP.v
theories/Proofs/PulsesP.v
theories/Proofs/QamP.v
theories/Proofs/QualityP.v
theories/Proofs/QualityQ.v
theories/Proofs/QualityR.v
theories/Proofs/QualityS.v
theories/Proofs/QualityT.v
theories/Proofs/RatesP.v
theories/Proofs/ResampleP.v
theories/Proofs/SignalFromP.v
theories/Proofs/SignalObjP.v
theories/Proofs/SignalObjP2.v
theories/Proofs/SignalObjP3.v
theories/Proofs/SignalObjP4.v
theories/Proofs/SignalObjP5.v
theories/Proofs/SimTxP.v
theories/Proofs/SymP.v
theories/Proofs/SyncP.v
theories/Proofs/SyncQ.v
theories/Proofs/TheorySimP.v
theories/Proofs/TwoStageP.v
theories/Proofs/TxE.v
theories/Proofs/TxP.v
theories/Proofs/TxQ.v
theories/Proofs/TxR.v
theories/Proofs/TxZ.v
theories/Proofs/WindowsP.v
theories/Proofs/WorkerP.v
theories/Props/BlockCpe.v
theories/Props/Classes.v
theories/Props/EqInit.v
theories/Props/Equaliser.v
theories/Props/Estimate.v
theories/Props/Filters.v
theories/Props/Frontend.v
theories/Props/Impair.v
theories/Props/Link.v
theories/Props/LinkNoise.v
theories/Props/Mapping.v
theories/Props/MatFiles.v
theories/Props/MatSignal.v
theories/Props/Messages.v
theories/Props/Norm.v
theories/Props/Numba.v
theories/Props/Phase.v
theories/Props/PhaseAf.v
theories/Props/PilotRx.v
theories/Props/Pilots.v
theories/Props/Pmd.v
theories/Props/Prbs.v
theories/Props/Pulses.v
theories/Props/Quality.v
theories/Props/Rates.v
theories/Props/Registers.v
theories/Props/Signals.v
theories/Props/SimTx.v
theories/Props/Sync.v
theories/Props/TheorySim.v
theories/Props/Transmitter.v
theories/Props/Utilities.v
theories/Props/Windows.v
theories/Spec/BertS.v
theories/Spec/BitErrS.v
theories/Spec/BitSeq.v
theories/Spec/Bits.v
theories/Spec/Closest.v
theories/Spec/CpeS.v
theories/Spec/EqInitS.v
theories/Spec/Equal.v
theories/Spec/EstimateS.v
theories/Spec/FilterSpec.v
theories/Spec/Frames.v
theories/Spec/Geometry.v
theories/Spec/HybridS.v
theories/Spec/ImpairSpec.v
theories/Spec/LfsrS.v
theories/Spec/Link.v
theories/Spec/LutSpec.v
theories/Spec/MatS.v
theories/Spec/Metrics.v
theories/Spec/PhaseSpec.v
theories/Spec/PilotSpec.v
theories/Spec/PmdS.v
theories/Spec/PulseS.v
theories/Spec/Seq.v
theories/Spec/Service.v
theories/Spec/SignalObjS.v
theories/Spec/SimTxS.v
theories/Spec/TwoStageS.v
theories/Spec/TxS.v
theories/Spec/Win.v
