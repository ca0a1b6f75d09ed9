-Q theories Verif

theories/Base.v
theories/L_Bitpack.v
theories/L_Block.v
theories/L_Cluster.v
theories/L_Cluster2.v
theories/L_Cluster3.v
theories/L_Cluster4.v
theories/L_Cluster5.v
theories/L_Cluster6.v
theories/L_Cluster7.v
theories/L_Cluster8.v
theories/L_Cluster9.v
theories/L_ClusterRnn.v
theories/L_ClusterRnn2.v
theories/L_ClusterRnn3.v
theories/L_ClusterRnn4.v
theories/L_Cmwc.v
theories/L_Cmwc2.v
theories/L_CommonEncoders.v
theories/L_CommonEncoders2.v
theories/L_CommonEncoders3.v
theories/L_CommonEncoders4.v
theories/L_CommonEncoders5.v
theories/L_CommonFlat.v
theories/L_CommonFlat2.v
theories/L_CommonFlat3.v
theories/L_CommonFlat4.v
theories/L_CommonFlat5.v
theories/L_Commute.v
theories/L_CompSchedule.v
theories/L_Compat.v
theories/L_Composer.v
theories/L_Compress.v
theories/L_Compress2.v
theories/L_Compress3.v
theories/L_Compress4.v
theories/L_Compress5.v
theories/L_Compress6.v
theories/L_CoreTree.v
theories/L_CoreTree2.v
theories/L_CoreTree3.v
theories/L_CoreTree4.v
theories/L_CoreTree5.v
theories/L_CoreTree6.v
theories/L_CoreTree7.v
theories/L_CoreTree8.v
theories/L_Dicts.v
theories/L_Encoder.v
theories/L_Epr.v
theories/L_Epr2.v
theories/L_Epr3.v
theories/L_Epr4.v
theories/L_Epr5.v
theories/L_Estimator.v
theories/L_EvalPruning.v
theories/L_EvalPruning2.v
theories/L_Float32.v
theories/L_Float32b.v
theories/L_Float32c.v
theories/L_FloatCluster.v
theories/L_FloatCluster2.v
theories/L_FloatHadamard.v
theories/L_FloatHadamard2.v
theories/L_FloatHadamard3.v
theories/L_FloatQuant.v
theories/L_FloatQuant2.v
theories/L_FloatRange.v
theories/L_FloatRange2.v
theories/L_FloatRange3.v
theories/L_FloatSchedule.v
theories/L_FloatSchedule2.v
theories/L_FloatSchedule3.v
theories/L_FloatSum.v
theories/L_FloatSum2.v
theories/L_Gather.v
theories/L_Gather2.v
theories/L_Gather3.v
theories/L_Gather4.v
theories/L_Gather5.v
theories/L_Gather6.v
theories/L_Gather7.v
theories/L_Hadamard.v
theories/L_Kashin.v
theories/L_Kashin2.v
theories/L_KashinOne.v
theories/L_Keys.v
theories/L_Layout8.v
theories/L_Layout8b.v
theories/L_Layout8c.v
theories/L_Layout8d.v
theories/L_Layout8e.v
theories/L_Layout8f.v
theories/L_Lookup.v
theories/L_Mask.v
theories/L_MbyN.v
theories/L_MbyN2.v
theories/L_NBit.v
theories/L_NBit2.v
theories/L_Num.v
theories/L_Preserve.v
theories/L_Preserve2.v
theories/L_Preserve3.v
theories/L_Preserve4.v
theories/L_Preserve5.v
theories/L_Preserve6.v
theories/L_PruneModel.v
theories/L_PruneWrapper.v
theories/L_PruneWrapper2.v
theories/L_QRnn.v
theories/L_QWrapper.v
theories/L_QWrapper3.v
theories/L_Quant.v
theories/L_QuantizeApply.v
theories/L_QuantizeApply2.v
theories/L_QuantizeApply4.v
theories/L_Quantizers.v
theories/L_Quantizers2.v
theories/L_Quantizers3.v
theories/L_Quantizers4.v
theories/L_Research.v
theories/L_Schedule.v
theories/L_Schedule2.v
theories/L_SepConv.v
theories/L_Sort.v
theories/L_Stages.v
theories/L_StripCqat.v
theories/L_Tensor.v
theories/L_Tools.v
theories/L_Tools2.v
theories/L_Transform.v
theories/L_Transform10.v
theories/L_Transform2.v
theories/L_Transform3.v
theories/L_Transform4.v
theories/L_Transform5.v
theories/L_Transform6.v
theories/L_Transform7.v
theories/L_Transform8.v
theories/L_Transform9.v
theories/L_Wrappers.v
theories/M_Bitpack.v
theories/M_Cluster.v
theories/M_ClusterRnn.v
theories/M_ClusterWrapper.v
theories/M_Cmwc.v
theories/M_CommonEncoders.v
theories/M_CommonFlat.v
theories/M_CompSchedule.v
theories/M_Compat.v
theories/M_Composer.v
theories/M_Compress.v
theories/M_CoreTree.v
theories/M_Dicts.v
theories/M_Encoder.v
theories/M_Epr.v
theories/M_Estimator.v
theories/M_EvalPruning.v
theories/M_Float32.v
theories/M_FloatCluster.v
theories/M_FloatHadamard.v
theories/M_FloatQuant.v
theories/M_FloatRange.v
theories/M_FloatSchedule.v
theories/M_FloatSum.v
theories/M_Gather.v
theories/M_Hadamard.v
theories/M_Layout8.v
theories/M_Mask.v
theories/M_Metrics.v
theories/M_NBit.v
theories/M_Num.v
theories/M_Preserve.v
theories/M_PruneModel.v
theories/M_PruneWrapper.v
theories/M_QRnn.v
theories/M_QWrapper.v
theories/M_Quant.v
theories/M_QuantizeApply.v
theories/M_Research.v
theories/M_Schedule.v
theories/M_SepConv.v
theories/M_Stages.v
theories/M_StripCqat.v
theories/M_Tensor.v
theories/M_Tools.v
theories/M_Transform.v
theories/M_Wrappers.v
theories/P_Bitpack.v
theories/P_Cluster.v
theories/P_ClusterRnn.v
theories/P_Cmwc.v
theories/P_CommonEncoders.v
theories/P_CommonFlat.v
theories/P_CompSchedule.v
theories/P_Compat.v
theories/P_Compress.v
theories/P_CoreTree.v
theories/P_CoreTree2.v
theories/P_Encoder.v
theories/P_Epr.v
theories/P_Estimator.v
theories/P_EvalPruning.v
theories/P_Float32.v
theories/P_FloatCluster.v
theories/P_FloatHadamard.v
theories/P_FloatQuant.v
theories/P_FloatRange.v
theories/P_FloatSchedule.v
theories/P_FloatSum.v
theories/P_Gather.v
theories/P_Hadamard.v
theories/P_Layout8.v
theories/P_Mask.v
theories/P_Metrics.v
theories/P_NBit.v
theories/P_Preserve.v
theories/P_PruneModel.v
theories/P_PruneWrapper.v
theories/P_QRnn.v
theories/P_QWrapper.v
theories/P_Quant.v
theories/P_QuantizeApply.v
theories/P_Schedule.v
theories/P_SepConv.v
theories/P_Stages.v
theories/P_StripCqat.v
theories/P_Tools.v
theories/P_Transform.v
theories/P_Wrappers.v
theories/S_Cluster.v
theories/S_ClusterRnn.v
theories/S_ClusterWrapper.v
theories/S_CommonEncoders.v
theories/S_CommonFlat.v
theories/S_Compat.v
theories/S_Composer.v
theories/S_Compress.v
theories/S_CoreTree.v
theories/S_CoreTree2.v
theories/S_Dicts.v
theories/S_Encoder.v
theories/S_Epr.v
theories/S_Estimator.v
theories/S_EvalPruning.v
theories/S_Float32.v
theories/S_FloatCluster.v
theories/S_FloatHadamard.v
theories/S_FloatQuant.v
theories/S_FloatRange.v
theories/S_FloatSchedule.v
theories/S_FloatSum.v
theories/S_Gather.v
theories/S_Hadamard.v
theories/S_Layout8.v
theories/S_Layout8b.v
theories/S_Mask.v
theories/S_NBit.v
theories/S_Preserve.v
theories/S_PruneModel.v
theories/S_PruneWrapper.v
theories/S_QRnn.v
theories/S_QWrapper.v
theories/S_Quant.v
theories/S_QuantizeApply.v
theories/S_Research.v
theories/S_SepConv.v
theories/S_Stages.v
theories/S_StripCqat.v
theories/S_Tools.v
theories/S_Transform.v
theories/S_Wrappers.v
